(** * Distributions made of means and deviations (C94) *)
From Coq Require Import ZArith Reals List Lra Lia Floats.SpecFloat.
From Flocq Require Import Core Relative BinarySingleNaN.
From Verif Require Import Num Double_spec Double_proofs Double_proofs2 Maq_return_proofs Group Totals Totals_spec
  Totals_proofs Totals_proofs2 Totals_proofs3.
Import ListNotations.
Local Open Scope R_scope.
Local Instance p53i : Prec_gt_0 53 := eq_refl.
Local Instance e1024i : Prec_lt_emax 53 1024 := eq_refl.

Lemma rnd_bpow k : (-1000 <= k <= 1000)%Z -> rnd 53 1024 (bpow radix2 k) = bpow radix2 k.
Proof.
  intros H. apply round_generic; [apply valid_rnd_N |]. apply generic_format_bpow. unfold SpecFloat.fexp, SpecFloat.emin. lia.
Qed.

Lemma rnd_range a b r : (-1000 <= a <= 1000)%Z -> (-1000 <= b <= 1000)%Z -> bpow radix2 a <= r <= bpow radix2 b ->
  bpow radix2 a <= rnd 53 1024 r <= bpow radix2 b.
Proof.
  intros A B H. rewrite <- (rnd_bpow a A) at 1. rewrite <- (rnd_bpow b B) at 1. split; apply (rnd_le 53 1024 p53); lra.
Qed.

Lemma rnd_top b r : (-1000 <= b <= 1000)%Z -> 0 <= r <= bpow radix2 b -> 0 <= rnd 53 1024 r <= bpow radix2 b.
Proof. intros B H. split; [apply rnd_nonneg; lra |]. rewrite <- (rnd_bpow b B). apply (rnd_le 53 1024 p53). lra. Qed.

Lemma small_top b r : (b <= 1000)%Z -> Rabs r <= bpow radix2 b -> Rabs (rnd 53 1024 r) < bpow radix2 1024.
Proof. intros B H. apply small_ok. eapply Rle_trans; [exact H | now apply bpow_le]. Qed.

(** What is made of a mean and a deviation, step by step. *)
Definition steps (log : F64 -> F64) (m s : F64) (mu sigma : R) : Prop :=
  exists (a : F64) (mm ss q sg gg h : R),
    mm = rnd 53 1024 (value m * value m) /\ ss = rnd 53 1024 (value s * value s) /\ q = rnd 53 1024 (ss / mm) /\
    double a /\ finite a /\ 1 <= value a /\ value a = rnd 53 1024 (1 + q) /\ 0 <= q /\
    sg = rnd 53 1024 (sqrt (value (log a))) /\ gg = rnd 53 1024 (sg * sg) /\ h = rnd 53 1024 (gg / 2) /\
    mu = rnd 53 1024 (value (log m) - h) /\ sigma = sg /\ sigma = value (root (log a)).

Lemma made_values log x : logarithm log -> between (bpow radix2 (-60)) (bpow radix2 430) (c_mean x) ->
  between 0 (bpow radix2 420) (c_sd x) ->
  fine (made log x) /\ steps log (c_mean x) (c_sd x) (real (fst (made log x))) (real (snd (made log x))).
Proof.
  intros L (Vm & Fm & Bm) (Vs & Fs & Bs). unfold made. set (m := c_mean x) in *. set (s := c_sd x) in *.
  change (real m) with (value m) in *. change (real s) with (value s) in *. apply finite_same in Fm. apply finite_same in Fs.
  assert (Pm : 0 < value m) by (pose proof (bpow_gt_0 radix2 (-60)); lra).
  replace (neqb F64 m (nofZ F64 0)) with false.
  2: { destruct m as [|[]| |[] ? ?]; try discriminate; [cbn in Pm; lra | reflexivity | reflexivity]. }
  assert (MM : bpow radix2 (-120) <= value m * value m <= bpow radix2 860).
  { change (-120)%Z with (-60 + -60)%Z. change 860%Z with (430 + 430)%Z. rewrite !bpow_plus.
    pose proof (bpow_gt_0 radix2 (-60)). split; apply Rmult_le_compat; lra. }
  assert (SS : 0 <= value s * value s <= bpow radix2 840).
  { change 840%Z with (420 + 420)%Z. rewrite bpow_plus. split; [apply Rmult_le_pos; lra | apply Rmult_le_compat; lra]. }
  pose proof (bpow_gt_0 radix2 (-120)) as P120.
  destruct (mul_value 53 1024 p53 e1024 m m Vm Vm Fm Fm) as [F1 E1].
  { apply (small_top 860); [lia |]. rewrite Rabs_pos_eq; lra. }
  destruct (mul_value 53 1024 p53 e1024 s s Vs Vs Fs Fs) as [F2 E2].
  { apply (small_top 840); [lia |]. rewrite Rabs_pos_eq; lra. }
  pose proof (valid_mul 53 1024 p53 e1024 m m Vm Vm) as V1. pose proof (valid_mul 53 1024 p53 e1024 s s Vs Vs) as V2.
  change (nmul F64 m m) with (SFmul 53 1024 m m). change (nmul F64 s s) with (SFmul 53 1024 s s).
  set (mm := SFmul 53 1024 m m) in *. set (ss := SFmul 53 1024 s s) in *.
  pose proof (rnd_range (-120) 860 _ ltac:(lia) ltac:(lia) MM) as B1. rewrite <- E1 in B1.
  pose proof (rnd_top 840 _ ltac:(lia) SS) as B2. rewrite <- E2 in B2.
  assert (D : 0 <= value ss / value mm <= bpow radix2 960).
  { split; [apply Rmult_le_pos; [lra | apply Rlt_le, Rinv_0_lt_compat; lra] |].
    apply Rle_trans with (bpow radix2 840 * bpow radix2 120); [| rewrite <- bpow_plus; apply bpow_le; lia].
    apply Rmult_le_compat; [lra | apply Rlt_le, Rinv_0_lt_compat; lra | lra |].
    change 120%Z with (- (-120))%Z. rewrite bpow_opp. apply Rinv_le; lra. }
  destruct (div_value 53 1024 p53 e1024 ss mm V2 V1 F2) as [F3 E3].
  { lra. }
  { apply (small_top 960); [lia |]. rewrite Rabs_pos_eq; lra. }
  pose proof (valid_div 53 1024 p53 e1024 ss mm V2 V1) as V3.
  change (ndiv F64 ss mm) with (SFdiv 53 1024 ss mm). set (q := SFdiv 53 1024 ss mm) in *.
  pose proof (rnd_top 960 _ ltac:(lia) D) as B3. rewrite <- E3 in B3.
  destruct one_value as (Vo & Fo & Eo). pose proof (one_big 960 ltac:(lia)) as O.
  assert (A : bpow radix2 0 <= value (nofZ F64 1) + value q <= bpow radix2 961).
  { rewrite Eo. change (bpow radix2 0) with 1. change 961%Z with (960 + 1)%Z. rewrite <- big_double. lra. }
  destruct (add_value 53 1024 p53 e1024 _ q Vo V3 Fo F3) as [F4 E4].
  { apply (small_top 961); [lia |]. change (bpow radix2 0) with 1 in A. rewrite Rabs_pos_eq; lra. }
  pose proof (valid_add 53 1024 p53 e1024 _ q Vo V3) as V4.
  change (nadd F64 (nofZ F64 1) q) with (SFadd 53 1024 (nofZ F64 1) q). set (a := SFadd 53 1024 (nofZ F64 1) q) in *.
  pose proof (rnd_range 0 961 _ ltac:(lia) ltac:(lia) A) as B4. rewrite <- E4 in B4. change (bpow radix2 0) with 1 in B4.
  destruct (L a V4 ltac:(apply finite_same; exact F4)) as (Vl & Fl & Bl & Pl).
  { change (real a) with (value a). lra. }
  change (real a) with (value a) in Pl. specialize (Pl ltac:(lra)). change (real (log a)) with (value (log a)) in *.
  apply finite_same in Fl.
  destruct (root_value _ Vl Fl Pl) as [Fr Er]. pose proof (root_valid _ Vl) as Vr. set (sg := root (log a)) in *.
  assert (Sg : 0 <= value sg <= bpow radix2 10).
  { rewrite Er. apply rnd_top; [lia |]. split; [apply sqrt_pos |]. apply Rabs_le_inv in Bl.
    assert (K : 1000 <= bpow radix2 10) by (change (bpow radix2 10) with 1024; lra).
    rewrite <- (sqrt_Rsqr (bpow radix2 10)) by apply bpow_ge_0. apply sqrt_le_1; [exact Pl | apply Rle_0_sqr |].
    unfold Rsqr. change (bpow radix2 10) with 1024. lra. }
  assert (QQ : 0 <= value sg * value sg <= bpow radix2 20).
  { change 20%Z with (10 + 10)%Z. rewrite bpow_plus. split; [apply Rmult_le_pos; lra | apply Rmult_le_compat; lra]. }
  destruct (mul_value 53 1024 p53 e1024 sg sg Vr Vr Fr Fr) as [F5 E5].
  { apply (small_top 20); [lia |]. rewrite Rabs_pos_eq; lra. }
  pose proof (valid_mul 53 1024 p53 e1024 sg sg Vr Vr) as V5.
  change (nmul F64 sg sg) with (SFmul 53 1024 sg sg). set (gg := SFmul 53 1024 sg sg) in *.
  pose proof (rnd_top 20 _ ltac:(lia) QQ) as B5. rewrite <- E5 in B5.
  assert (Two : value (nofZ F64 2) = 2) by (cbn; unfold F2R; cbn; lra).
  assert (H6 : 0 <= value gg / value (nofZ F64 2) <= bpow radix2 20) by (rewrite Two; pose proof (bpow_ge_0 radix2 20); lra).
  destruct (div_value 53 1024 p53 e1024 gg (nofZ F64 2) V5 eq_refl F5) as [F6 E6].
  { rewrite Two. lra. }
  { apply (small_top 20); [lia |]. rewrite Rabs_pos_eq; lra. }
  pose proof (valid_div 53 1024 p53 e1024 gg (nofZ F64 2) V5 eq_refl) as V6.
  change (ndiv F64 gg (nofZ F64 2)) with (SFdiv 53 1024 gg (nofZ F64 2)). set (h := SFdiv 53 1024 gg (nofZ F64 2)) in *.
  pose proof (rnd_top 20 _ ltac:(lia) H6) as B6. rewrite <- E6 in B6.
  destruct (L m Vm ltac:(apply finite_same; exact Fm) Pm) as (Vk & Fk & Bk & _). change (real (log m)) with (value (log m)) in *.
  apply finite_same in Fk. apply Rabs_le_inv in Bk.
  destruct (sub_value 53 1024 p53 e1024 (log m) h Vk V6 Fk F6) as [F7 E7].
  { apply (small_top 21); [lia |]. change 21%Z with (20 + 1)%Z. rewrite <- big_double.
    assert (1000 <= bpow radix2 20) by (apply Rle_trans with (bpow radix2 10); [change (bpow radix2 10) with 1024; lra | apply bpow_le; lia]).
    apply Rabs_le. lra. }
  split; cbn [fst snd].
  - split; cbn [fst snd].
    + split; [apply (valid_sub 53 1024 p53 e1024); assumption | apply finite_same; exact F7].
    + split; [exact Vr |]. split; [apply finite_same; exact Fr | exact (proj1 Sg)].
  - exists a, (value mm), (value ss), (value q), (value sg), (value gg), (value h).
    split; [exact E1 |]. split; [exact E2 |]. split; [exact E3 |]. split; [exact V4 |]. split; [apply finite_same; exact F4 |].
    split; [lra |]. split; [rewrite <- Eo; exact E4 |]. split; [lra |]. split; [exact Er |]. split; [exact E5 |].
    split; [rewrite <- Two; exact E6 |]. split; [exact E7 |]. split; reflexivity.
Qed.

Lemma made_fine log x : logarithm log -> between (bpow radix2 (-60)) (bpow radix2 430) (c_mean x) ->
  between 0 (bpow radix2 420) (c_sd x) -> fine (made log x).
Proof. intros L M S. apply (made_values log x L M S). Qed.

(** A root not beyond a bound. *)
Lemma root_bound a b : 0 <= a -> 0 <= b -> a * a <= b * b -> a <= b.
Proof. intros A B H. apply Rsqr_incr_0; unfold Rsqr; assumption. Qed.

Lemma mixture_top l : Forall (fun '(p, m, s) => 0 <= p <= 1 /\ 0 <= m <= bpow radix2 400 /\ 0 <= s <= bpow radix2 400) l ->
  0 <= mixture_mean l <= INR (List.length l) * bpow radix2 400 /\ 0 <= mixture_square l <= INR (List.length l) * bpow radix2 801.
Proof.
  induction l as [|[[p m] s] l IH]; intros H.
  - cbn -[bpow INR]. change (INR 0) with 0. rewrite !Rmult_0_l. lra.
  - inversion H as [|? ? HP H']; subst. destruct HP as (P & M & S). destruct (IH H') as [A B]. cbn [mixture_mean mixture_square List.length]. rewrite S_INR.
    assert (0 <= p * m <= bpow radix2 400).
    { split; [apply Rmult_le_pos; lra |]. apply Rle_trans with (1 * m); [apply Rmult_le_compat_r; lra | lra]. }
    assert (E8 : bpow radix2 801 = 2 * (bpow radix2 400 * bpow radix2 400)) by (rewrite <- bpow_plus, big_double; reflexivity).
    assert (m * m <= bpow radix2 400 * bpow radix2 400) by (apply Rmult_le_compat; lra).
    assert (s * s <= bpow radix2 400 * bpow radix2 400) by (apply Rmult_le_compat; lra).
    assert (0 <= m * m) by (apply Rmult_le_pos; lra). assert (0 <= s * s) by (apply Rmult_le_pos; lra).
    assert (0 <= p * (m * m + s * s) <= bpow radix2 801).
    { split; [apply Rmult_le_pos; lra |]. apply Rle_trans with (1 * (m * m + s * s)); [apply Rmult_le_compat_r; lra | lra]. }
    lra.
Qed.

(** Mean and deviation of a mixture lie where distributions can be made. *)
Lemma figures_fine log (x : cost) M Q V k :
  logarithm log -> double (c_mean x) -> finite (c_mean x) -> 0 <= real (c_mean x) ->
  Rabs (real (c_mean x) - M) <= bpow radix2 (-20) * M + bpow radix2 (-1000) ->
  double (c_sd x) -> finite (c_sd x) -> 0 <= real (c_sd x) ->
  Rabs (real (c_sd x) * real (c_sd x) - V) <= Q + M * M + k -> k <= 1 -> V <= Q + M * M ->
  bpow radix2 (-50) <= M -> M <= bpow radix2 410 -> Q <= bpow radix2 830 -> fine (made log x).
Proof.
  intros L Vm Fm Pm Em Vs Fs Ps Es K VQ M1 M2 Q1. apply made_fine; [exact L | |].
  - split; [exact Vm |]. split; [exact Fm |]. apply Rabs_le_inv in Em.
    assert (P20 : bpow radix2 (-20) <= 1 / 1000).
    { apply Rle_trans with (bpow radix2 (-10)); [apply bpow_le; lia |]. change (bpow radix2 (-10)) with (/ 1024). lra. }
    pose proof (bpow_gt_0 radix2 (-50)). pose proof (bpow_ge_0 radix2 (-20)).
    assert (bpow radix2 (-20) * M <= 1 / 1000 * M) by (apply Rmult_le_compat_r; lra).
    assert (bpow radix2 (-1000) <= 1 / 1000 * bpow radix2 (-50)).
    { apply Rle_trans with (bpow radix2 (-10) * bpow radix2 (-50) * (1 / 2)); [| change (bpow radix2 (-10)) with (/ 1024); lra].
      rewrite <- bpow_plus. change (1 / 2) with (1 * / 2). change (/ 2) with (bpow radix2 (-1)). rewrite Rmult_1_l, <- bpow_plus. apply bpow_le. lia. }
    assert (bpow radix2 (-60) <= 1 / 1000 * bpow radix2 (-50)).
    { change (-60)%Z with (-10 + -50)%Z. rewrite bpow_plus. apply Rmult_le_compat_r; [lra |]. change (bpow radix2 (-10)) with (/ 1024). lra. }
    assert (bpow radix2 410 * 2 <= bpow radix2 430) by (rewrite Rmult_comm, big_double; apply bpow_le; lia).
    lra.
  - split; [exact Vs |]. split; [exact Fs |]. split; [exact Ps |]. apply root_bound; [exact Ps | apply bpow_ge_0 |].
    apply Rabs_le_inv in Es. rewrite <- bpow_plus. change (420 + 420)%Z with (838 + 1 + 1)%Z. rewrite <- !big_double.
    pose proof (bpow_gt_0 radix2 (-50)).
    assert (M * M <= bpow radix2 820) by (change 820%Z with (410 + 410)%Z; rewrite bpow_plus; apply Rmult_le_compat; lra).
    assert (bpow radix2 820 <= bpow radix2 837) by (apply bpow_le; lia).
    assert (bpow radix2 830 <= bpow radix2 837) by (apply bpow_le; lia).
    assert (2 * bpow radix2 837 = bpow radix2 838) by apply big_double.
    pose proof (one_big 838 ltac:(lia)). lra.
Qed.

Lemma three_top c r d b : sound c -> known r -> known d -> known b ->
  0 <= mixture_mean (three c r d b) <= INR 3 * bpow radix2 400 /\ 0 <= mixture_square (three c r d b) <= INR 3 * bpow radix2 801.
Proof.
  intros S (R1 & R2) (D1 & D2) (B1 & B2). apply (mixture_top (three c r d b)).
  destruct (fates_sound c S) as (P1 & P2 & P3 & _).
  repeat apply Forall_cons; try apply Forall_nil; repeat split; first [apply P1 | apply P2 | apply P3 | apply R1 | apply R2 | apply D1 | apply D2 | apply B1 | apply B2].
Qed.

Lemma total_made log c r d b : logarithm log -> sound c -> known r -> known d -> known b ->
  let l := three c r d b in
  bpow radix2 (-50) <= mixture_mean l -> bpow radix2 (-47) * mixture_square l + bpow radix2 (-570) <= mixture_variance l ->
  fine (made log (total c r d b)).
Proof.
  intros L S Kr Kd Kb l LM LV. destruct (total_right c r d b S Kr Kd Kb) as [(Vm & Fm & Pm & Em) D]. fold l in Em, D.
  destruct (D LV) as (Vs & Fs & Ps & Es). destruct (three_top c r d b S Kr Kd Kb) as [TM TQ]. fold l in TM, TQ.
  change (INR 3) with (1 + 1 + 1) in *. pose proof (bpow_ge_0 radix2 400). pose proof (bpow_ge_0 radix2 801).
  assert (MM : 0 <= mixture_mean l * mixture_mean l) by (apply Rmult_le_pos; lra).
  assert (P47 : bpow radix2 (-47) <= 1) by (change 1 with (bpow radix2 0); apply bpow_le; lia).
  eapply figures_fine with (M := mixture_mean l) (Q := mixture_square l) (V := mixture_variance l) (k := bpow radix2 (-570)); try assumption.
  - eapply Rle_trans; [exact Em |]. apply Rplus_le_compat; [apply Rmult_le_compat_r; [lra | apply bpow_le; lia] | apply bpow_le; lia].
  - eapply Rle_trans; [exact Es |].
    assert (bpow radix2 (-47) * mixture_square l <= 1 * mixture_square l) by (apply Rmult_le_compat_r; lra). lra.
  - change 1 with (bpow radix2 0). apply bpow_le. lia.
  - unfold mixture_variance. lra.
  - apply Rle_trans with (2 * (2 * bpow radix2 400)); [lra |]. rewrite !big_double. apply bpow_le. lia.
  - apply Rle_trans with (2 * (2 * bpow radix2 801)); [lra |]. rewrite !big_double. apply bpow_le. lia.
Qed.

Lemma weighted_made log l : logarithm log -> Forall usable l -> (List.length l <= 2 ^ 8)%nat ->
  bpow radix2 (-50) <= mixture_mean (cases l) -> fine (made log (weighted l)).
Proof.
  intros L U N LM.
  assert (N' : INR (List.length l) <= 256).
  { apply le_INR in N. rewrite pow_INR in N. change (INR 2) with (1 + 1) in N. lra. }
  destruct (weighted_right l U) as (Vm & Fm & Pm & Em & Vs & Fs & Ps & Es).
  { eapply Nat.le_trans; [exact N |]. apply Nat.pow_le_mono_r; lia. }
  set (n := INR (List.length l)) in *. assert (Pn : 0 <= n) by apply pos_INR.
  assert (T : 0 <= mixture_mean (cases l) <= n * bpow radix2 400 /\ 0 <= mixture_square (cases l) <= n * bpow radix2 801).
  { unfold n. replace (List.length l) with (List.length (cases l)) by apply map_length. apply mixture_top.
    clear -U. induction U as [|[x w] l [[A B] C] U IH]; [constructor |]. constructor; [| exact IH].
    repeat split; first [apply A | apply B | apply C]. }
  destruct T as [TM TQ]. set (M := mixture_mean (cases l)) in *. set (Q := mixture_square (cases l)) in *.
  assert (MM : 0 <= M * M) by (apply Rmult_le_pos; lra).
  assert (E52 : 1024 * e = bpow radix2 (-42)) by (change (-42)%Z with (10 + -52)%Z; rewrite bpow_plus; reflexivity).
  pose proof e_pos. pose proof (bpow_ge_0 radix2 400). pose proof (bpow_ge_0 radix2 801).
  assert (ne : n * e <= 256 * e) by (apply Rmult_le_compat_r; lra).
  assert (P42 : bpow radix2 (-42) <= bpow radix2 (-20)) by (apply bpow_le; lia).
  assert (P20 : bpow radix2 (-20) <= 1) by (change 1 with (bpow radix2 0); apply bpow_le; lia).
  eapply figures_fine with (M := M) (Q := Q) (V := Rabs (mixture_variance (cases l))) (k := bpow radix2 (-570)); try assumption.
  - eapply Rle_trans; [exact Em |]. apply Rplus_le_compat_r. apply Rmult_le_compat_r; lra.
  - eapply Rle_trans; [exact Es |]. apply Rplus_le_compat_r.
    apply Rle_trans with (1 * (Q + M * M)); [apply Rmult_le_compat_r; lra | lra].
  - change 1 with (bpow radix2 0). apply bpow_le. lia.
  - unfold mixture_variance. fold Q M. apply Rabs_le. lra.
  - apply Rle_trans with (bpow radix2 8 * bpow radix2 400); [| rewrite <- bpow_plus; apply bpow_le; lia].
    apply Rle_trans with (n * bpow radix2 400); [lra |]. apply Rmult_le_compat_r; [lra |]. change (bpow radix2 8) with 256. lra.
  - apply Rle_trans with (bpow radix2 8 * bpow radix2 801); [| rewrite <- bpow_plus; apply bpow_le; lia].
    apply Rle_trans with (n * bpow radix2 801); [lra |]. apply Rmult_le_compat_r; [lra |]. change (bpow radix2 8) with 256. lra.
Qed.

(** ** A total cost that is lost *)

Definition almost_one : F64 := S754_finite false 9007199254740989 (-53).
Definition lost_chances : chances := Chances (Some almost_one) None.
Definition lost_repair : cost := Cost (nofZ F64 4) (nofZ F64 1).
Definition lost_rebuild : cost := Cost (nofZ F64 12) (nofZ F64 0).

Lemma small_int n : (0 <= n <= 12)%Z -> amount (nofZ F64 n) /\ real (nofZ F64 n) = IZR n.
Proof.
  intros H.
  assert (C : (n = 0 \/ n = 1 \/ n = 2 \/ n = 3 \/ n = 4 \/ n = 5 \/ n = 6 \/ n = 7 \/ n = 8 \/ n = 9 \/ n = 10 \/ n = 11 \/ n = 12)%Z) by lia.
  assert (B : 12 <= bpow radix2 400) by (apply Rle_trans with (bpow radix2 4); [change (bpow radix2 4) with 16; lra | apply bpow_le; lia]).
  assert (V : double (nofZ F64 n) /\ finite (nofZ F64 n) /\ real (nofZ F64 n) = IZR n).
  { clear B H. repeat (destruct C as [-> | C]; [repeat split; cbn; unfold F2R; cbn; lra |]). subst n. repeat split; cbn; unfold F2R; cbn; lra. }
  destruct V as (D & F & V). split; [| exact V]. split; [exact D |]. split; [exact F |].
  rewrite V. split; [apply IZR_le; lia |]. apply Rle_trans with 12; [apply IZR_le; lia | exact B].
Qed.

Lemma almost_one_real : real almost_one = 1 - 3 * bpow radix2 (-53).
Proof.
  assert (B : 9007199254740992 * bpow radix2 (-53) = 1).
  { change 9007199254740992 with (bpow radix2 53). rewrite <- bpow_plus. reflexivity. }
  unfold real, almost_one, SF2R, F2R. cbn [Fnum Fexp cond_Zopp]. lra.
Qed.

Lemma lost_rest : real (p_repair lost_chances) = 3 * bpow radix2 (-53).
Proof.
  replace (p_repair lost_chances) with (S754_finite false 6755399441055744 (-104)) by (vm_compute; reflexivity).
  assert (B : 2251799813685248 * bpow radix2 (-104) = bpow radix2 (-53)).
  { change 2251799813685248 with (bpow radix2 51). rewrite <- bpow_plus. reflexivity. }
  unfold real, SF2R, F2R. cbn [Fnum Fexp cond_Zopp]. lra.
Qed.

Lemma lost_sound : sound lost_chances /\ known lost_repair /\ known lost_rebuild.
Proof.
  split; [| split; split; apply small_int; lia].
  split; [reflexivity |]. split; [reflexivity |]. rewrite almost_one_real.
  pose proof (bpow_gt_0 radix2 (-53)).
  assert (bpow radix2 (-53) <= bpow radix2 (-2)) by (apply bpow_le; lia). change (bpow radix2 (-2)) with (/ 4) in *. lra.
Qed.

Lemma lost_mixture d : known d -> let l := three lost_chances lost_repair d lost_rebuild in
  4 <= mixture_mean l /\ 0 < mixture_variance l.
Proof.
  intros _ l. unfold l, three, mixture_variance, mixture_mean, mixture_square. rewrite lost_rest.
  change (real (p_collapse lost_chances)) with (real almost_one). rewrite almost_one_real.
  change (real (p_demolition lost_chances)) with 0. unfold lost_repair, lost_rebuild. cbn [c_mean c_sd].
  rewrite (proj2 (small_int 4 ltac:(lia))), (proj2 (small_int 1 ltac:(lia))), (proj2 (small_int 12 ltac:(lia))), (proj2 (small_int 0 ltac:(lia))).
  set (b := bpow radix2 (-53)). assert (0 < b) by apply bpow_gt_0.
  assert (b <= / 4) by (change (/ 4) with (bpow radix2 (-2)); apply bpow_le; lia).
  split; [lra |]. assert (0 <= b * (/ 4 - b)) by (apply Rmult_le_pos; lra). nra.
Qed.

Lemma lost_total d : known d -> c_sd (total lost_chances lost_repair d lost_rebuild) = S754_nan.
Proof. intros _. unfold total, total_mean_var. destruct d as [m s]. vm_compute. reflexivity. Qed.

Lemma sub_nan x : nsub F64 x S754_nan = S754_nan.
Proof. destruct x as [[]|[]| |[] ? ?]; reflexivity. Qed.

Lemma lost_made log d : known d -> log S754_nan = S754_nan ->
  made log (total lost_chances lost_repair d lost_rebuild) = (S754_nan, S754_nan).
Proof.
  intros K E. pose proof (lost_total d K) as T. unfold made. rewrite T.
  replace (neqb F64 (c_mean (total lost_chances lost_repair d lost_rebuild)) (nofZ F64 0)) with false by (destruct d as [m s]; vm_compute; reflexivity).
  replace (nadd F64 (nofZ F64 1) _) with S754_nan by reflexivity. rewrite E.
  replace (root S754_nan) with S754_nan by reflexivity. f_equal.
  change (ndiv F64 (nmul F64 S754_nan S754_nan) (nofZ F64 2)) with S754_nan. apply sub_nan.
Qed.

Lemma total_lost :
  exists c r b, sound c /\ known r /\ known b /\
    forall d, known d ->
      4 <= mixture_mean (three c r d b) /\ 0 < mixture_variance (three c r d b) /\
      forall log : F64 -> F64, log S754_nan = S754_nan -> made log (total c r d b) = (S754_nan, S754_nan).
Proof.
  exists lost_chances, lost_repair, lost_rebuild. destruct lost_sound as (S & R & B). split; [exact S |]. split; [exact R |]. split; [exact B |].
  intros d K. destruct (lost_mixture d K) as [A V]. split; [exact A |]. split; [exact V |]. intros log L. now apply lost_made.
Qed.
