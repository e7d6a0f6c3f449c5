(** * Probabilities of the fates, and cost with collapse (C94) *)
From Coq Require Import ZArith Reals List Lra Lia Floats.SpecFloat.
From Flocq Require Import Core Relative BinarySingleNaN.
From Verif Require Import Num Double_spec Double_proofs Double_proofs2 Maq_return_proofs Group Totals Totals_spec
  Totals_proofs Totals_proofs2 Totals_proofs3 Totals_proofs4.
Import ListNotations.
Local Open Scope R_scope.
Local Instance p53i : Prec_gt_0 53 := eq_refl.
Local Instance e1024i : Prec_lt_emax 53 1024 := eq_refl.

Lemma collapse_exact c : real (p_collapse c) = collapse_chance c.
Proof. unfold p_collapse, collapse_chance. destruct (ch_collapse c); reflexivity. Qed.

Lemma collapse_fair c : sound c -> chance (p_collapse c).
Proof. intros S. apply (fates_sound c S). Qed.

Lemma fates_right c : sound c ->
  chance (p_repair c) /\ chance (p_demolition c) /\ chance (p_collapse c) /\
  real (p_collapse c) = collapse_chance c /\
  Rabs (real (p_demolition c) - (beyond_use c - collapse_chance c)) <= bpow radix2 (-54) /\
  Rabs (real (p_repair c) - (1 - beyond_use c)) <= bpow radix2 (-51) /\
  Rabs (real (p_repair c) + real (p_demolition c) + real (p_collapse c) - 1) <= bpow radix2 (-52).
Proof.
  intros S. destruct (fates_sound c S) as (R & D & C & T). pose proof (collapse_exact c) as E. pose proof (bpow_gt_0 radix2 (-54)) as P54.
  assert (DD : Rabs (real (p_demolition c) - (beyond_use c - collapse_chance c)) <= bpow radix2 (-54)).
  { rewrite <- E. unfold p_demolition, beyond_use. destruct (ch_demolition c) as [q|] eqn:Eq.
    - assert (Q : chance q /\ real (p_collapse c) <= real q).
      { unfold sound, p_collapse in *. rewrite Eq in S. destruct (ch_collapse c) as [p|]; [tauto |].
        split; [exact S |]. destruct S as (_ & _ & B). cbn. lra. }
      destruct Q as [Q L]. destruct (chance_sub _ _ C Q L) as [_ X]. rewrite X. apply unit_err.
      destruct C as (_ & _ & BC). destruct Q as (_ & _ & BQ). lra.
    - rewrite E. replace (real (nofZ F64 0) - _) with 0 by (cbn; lra). rewrite Rabs_R0. lra. }
  do 5 (split; [assumption |]). split; [| exact T].
  apply Rabs_le_inv in DD. apply Rabs_le_inv in T. apply Rabs_le.
  assert (E1 : bpow radix2 (-52) = 4 * bpow radix2 (-54)) by (change (-52)%Z with (2 + -54)%Z; rewrite bpow_plus; reflexivity).
  assert (E2 : bpow radix2 (-51) = 8 * bpow radix2 (-54)) by (change (-51)%Z with (3 + -54)%Z; rewrite bpow_plus; reflexivity).
  lra.
Qed.

(** ** Cost with collapse *)

Lemma one_minus p : chance p ->
  chance (nsub F64 (nofZ F64 1) p) /\ Rabs (real (nsub F64 (nofZ F64 1) p) - (1 - real p)) <= bpow radix2 (-54).
Proof.
  intros P. destruct one_value as (V1 & F1 & E1). assert (B : 0 <= real p <= 1) by apply P.
  assert (O : chance (nofZ F64 1)).
  { split; [exact V1 |]. split; [apply finite_same; exact F1 |]. change (real (nofZ F64 1)) with (value (nofZ F64 1)). lra. }
  destruct (chance_sub _ _ P O) as [X E]; [change (real (nofZ F64 1)) with (value (nofZ F64 1)); lra |].
  split; [exact X |]. rewrite E. change (real (nofZ F64 1)) with (value (nofZ F64 1)). rewrite E1. apply unit_err. lra.
Qed.

Lemma known_range x : known x -> 0 <= real (c_mean x) /\ 0 <= real (c_sd x).
Proof. intros [(_ & _ & A) (_ & _ & B)]. lra. Qed.

Lemma with_collapse_right c r b : sound c -> known r -> known b ->
  let l := two c r b in
  let x := with_collapse c r b in
  let M := mixture_mean l + real (c_mean r) in
  let Q := mixture_square l + real (c_mean r) * real (c_mean r) + real (c_sd r) * real (c_sd r) in
  double (c_mean x) /\ finite (c_mean x) /\ 0 <= real (c_mean x) /\
  Rabs (real (c_mean x) - mixture_mean l) <= bpow radix2 (-49) * M + bpow radix2 (-1000) /\
  double (c_sd x) /\ finite (c_sd x) /\ 0 <= real (c_sd x) /\
  Rabs (real (c_sd x) * real (c_sd x) - mixture_variance l) <= bpow radix2 (-46) * Q + bpow radix2 (-570).
Proof.
  intros S Kr Kb l x M Q. pose proof (collapse_fair c S) as C. destruct (one_minus _ C) as [W E].
  destruct (weighted_right [(r, nsub F64 (nofZ F64 1) (p_collapse c)); (b, p_collapse c)]) as (Vm & Fm & Pm & Em & Vs & Fs & Ps & Es).
  { apply Forall_cons; [split; [exact Kr | exact W] |]. apply Forall_cons; [split; [exact Kb | exact C] |]. apply Forall_nil. }
  { cbn [List.length]. apply Nat.le_trans with (2 ^ 1)%nat; [cbn; lia | apply Nat.pow_le_mono_r; lia]. }
  fold (with_collapse c r b) in Vm, Fm, Pm, Em, Vs, Fs, Ps, Es. fold x in Vm, Fm, Pm, Em, Vs, Fs, Ps, Es.
  split; [exact Vm |]. split; [exact Fm |]. split; [exact Pm |].
  cbn [List.length] in Em, Es. change (INR 2) with (1 + 1) in Em, Es.
  unfold M, Q, l. unfold cases, mixture_variance, two in *. cbn [map mixture_mean mixture_square] in *.
  rewrite collapse_exact in *. set (p := collapse_chance c) in *.
  assert (Bp : 0 <= p <= 1) by (destruct C as (_ & _ & B); rewrite collapse_exact in B; exact B).
  set (w := real (nsub F64 (nofZ F64 1) (p_collapse c))) in *. destruct (known_range r Kr) as [R1 R2]. destruct (known_range b Kb) as [B1 B2].
  set (mr := real (c_mean r)) in *. set (sr := real (c_sd r)) in *. set (mb := real (c_mean b)) in *. set (sb := real (c_sd b)) in *.
  assert (Bw : 0 <= w <= 1) by apply W.
  replace (w * mr + (p * mb + 0)) with (w * mr + p * mb) in * by ring.
  replace (w * (mr * mr + sr * sr) + (p * (mb * mb + sb * sb) + 0)) with (w * (mr * mr + sr * sr) + p * (mb * mb + sb * sb)) in * by ring.
  replace ((1 - p) * mr + (p * mb + 0)) with ((1 - p) * mr + p * mb) by ring.
  replace ((1 - p) * (mr * mr + sr * sr) + (p * (mb * mb + sb * sb) + 0)) with ((1 - p) * (mr * mr + sr * sr) + p * (mb * mb + sb * sb)) by ring.
  set (d := w - (1 - p)) in *.
  set (M0 := (1 - p) * mr + p * mb) in *. set (qr := mr * mr + sr * sr) in *. set (qb := mb * mb + sb * sb) in *.
  set (Q0 := (1 - p) * qr + p * qb) in *.
  assert (EM : w * mr + p * mb = M0 + d * mr) by (unfold M0, d; ring).
  assert (EQ : w * qr + p * qb = Q0 + d * qr) by (unfold Q0, d; ring).
  rewrite EM in Em, Es. rewrite EQ in Es.
  set (f := bpow radix2 (-54)) in *. assert (Pf : 0 < f) by apply bpow_gt_0. apply Rabs_le_inv in E.
  assert (Ee : e = 4 * f) by (change (-52)%Z with (2 + -54)%Z; rewrite bpow_plus; reflexivity).
  assert (E49 : bpow radix2 (-49) = 32 * f) by (change (-49)%Z with (5 + -54)%Z; rewrite bpow_plus; reflexivity).
  assert (E46 : bpow radix2 (-46) = 256 * f) by (change (-46)%Z with (8 + -54)%Z; rewrite bpow_plus; reflexivity).
  assert (f1 : f <= 1 / 1000000) by (pose proof e_small; lra).
  assert (Q1 : 0 <= mr * mr) by (apply Rmult_le_pos; lra). assert (Q2 : 0 <= sr * sr) by (apply Rmult_le_pos; lra).
  assert (Q3 : 0 <= mb * mb) by (apply Rmult_le_pos; lra). assert (Q4 : 0 <= sb * sb) by (apply Rmult_le_pos; lra).
  assert (Pqr : 0 <= qr) by (unfold qr; lra). assert (Pqb : 0 <= qb) by (unfold qb; lra).
  assert (PM0 : 0 <= M0) by (unfold M0; apply Rplus_le_le_0_compat; apply Rmult_le_pos; lra).
  assert (PQ0 : 0 <= Q0) by (unfold Q0; apply Rplus_le_le_0_compat; apply Rmult_le_pos; lra).
  assert (J : M0 * M0 <= Q0).
  { unfold M0, Q0. assert (0 <= (1 - p) * p * ((mr - mb) * (mr - mb))) by (apply Rmult_le_pos; [apply Rmult_le_pos; lra | apply Rle_0_sqr]).
    assert (0 <= (1 - p) * (sr * sr)) by (apply Rmult_le_pos; lra). assert (0 <= p * (sb * sb)) by (apply Rmult_le_pos; lra).
    unfold qr, qb. lra. }
  assert (dm : Rabs (d * mr) <= f * mr) by (rewrite Rabs_mult, (Rabs_pos_eq mr) by lra; apply Rmult_le_compat_r; [lra | apply Rabs_le; lra]).
  assert (dq : Rabs (d * qr) <= f * qr) by (rewrite Rabs_mult, (Rabs_pos_eq qr) by lra; apply Rmult_le_compat_r; [lra | apply Rabs_le; lra]).
  set (dmr := d * mr) in *. set (dqr := d * qr) in *. apply Rabs_le_inv in dm. apply Rabs_le_inv in dq.
  assert (fm : 0 <= f * mr) by (apply Rmult_le_pos; lra). assert (fM : 0 <= f * M0) by (apply Rmult_le_pos; lra).
  assert (fq : 0 <= f * qr) by (apply Rmult_le_pos; lra). assert (fQ : 0 <= f * Q0) by (apply Rmult_le_pos; lra).
  assert (fJ : f * (M0 * M0) <= f * Q0) by (apply Rmult_le_compat_l; lra).
  assert (ffm : f * (f * mr) <= 1 / 1000000 * (f * mr)) by (apply Rmult_le_compat_r; lra).
  split.
  { rewrite E49. rewrite Ee in Em.
    assert (f * dmr <= f * (f * mr)) by (apply Rmult_le_compat_l; lra).
    apply Rabs_le. apply Rabs_le_inv in Em. lra. }
  split; [exact Vs |]. split; [exact Fs |]. split; [exact Ps |]. rewrite E46.
  set (M1 := M0 + dmr) in *. set (Q5 := Q0 + dqr) in *.
  assert (MR : M0 * mr <= 1 / 2 * (M0 * M0) + 1 / 2 * (mr * mr)).
  { assert (0 <= (M0 - mr) * (M0 - mr)) by apply Rle_0_sqr. lra. }
  assert (mrq : mr * mr <= qr) by (unfold qr; lra).
  assert (fmq : f * (mr * mr) <= f * qr) by (apply Rmult_le_compat_l; lra).
  assert (dM : Rabs (M1 * M1 - M0 * M0) <= f * Q0 + 3 * (f * qr)).
  { replace (M1 * M1 - M0 * M0) with (2 * (M0 * dmr) + dmr * dmr) by (unfold M1; ring).
    assert (A1 : Rabs (M0 * dmr) <= M0 * (f * mr)) by (rewrite Rabs_mult, (Rabs_pos_eq M0) by lra; apply Rmult_le_compat_l; [lra | apply Rabs_le; lra]).
    assert (A2 : Rabs (dmr * dmr) <= f * mr * (f * mr)).
    { rewrite Rabs_mult. assert (Rabs dmr <= f * mr) by (apply Rabs_le; lra). apply Rmult_le_compat; try apply Rabs_pos; assumption. }
    assert (A3 : M0 * (f * mr) <= 1 / 2 * (f * (M0 * M0)) + 1 / 2 * (f * (mr * mr))).
    { replace (M0 * (f * mr)) with (f * (M0 * mr)) by ring.
      apply Rle_trans with (f * (1 / 2 * (M0 * M0) + 1 / 2 * (mr * mr))); [apply Rmult_le_compat_l; lra | lra]. }
    assert (A4 : f * mr * (f * mr) <= 1 * (f * (mr * mr))).
    { replace (f * mr * (f * mr)) with (f * (f * (mr * mr))) by ring. apply Rmult_le_compat_r; [apply Rmult_le_pos; lra | lra]. }
    apply Rabs_le_inv in A1. apply Rabs_le_inv in A2. apply Rabs_le. lra. }
  apply Rabs_le_inv in dM.
  assert (V : Rabs (Rabs (Q5 - M1 * M1) - (Q0 - M0 * M0)) <= f * Q0 + 4 * (f * qr)).
  { rewrite <- (Rabs_pos_eq (Q0 - M0 * M0)) at 1 by lra. eapply Rle_trans; [apply Rabs_triang_inv2 |].
    apply Rabs_le. unfold Q5. lra. }
  set (z := real (c_sd x) * real (c_sd x)) in *.
  replace (z - (Q0 - M0 * M0)) with ((z - Rabs (Q5 - M1 * M1)) + (Rabs (Q5 - M1 * M1) - (Q0 - M0 * M0))) by ring.
  eapply Rle_trans; [apply Rabs_triang |].
  assert (G : (3 * (1 + 1) + 14) * e * (Q5 + M1 * M1) <= 80 * (f * (2 * Q0 + qr + (f * Q0 + 3 * (f * qr))))).
  { rewrite Ee. replace ((3 * (1 + 1) + 14) * (4 * f) * (Q5 + M1 * M1)) with (80 * (f * (Q5 + M1 * M1))) by ring.
    apply Rmult_le_compat_l; [lra |]. apply Rmult_le_compat_l; [lra |].
    assert (f * qr <= 1 * qr) by (apply Rmult_le_compat_r; lra). unfold Q5. lra. }
  assert (f * (f * Q0) <= 1 / 1000000 * (f * Q0)) by (apply Rmult_le_compat_r; lra).
  assert (f * (f * qr) <= 1 / 1000000 * (f * qr)) by (apply Rmult_le_compat_r; lra).
  replace (Q0 + mr * mr + sr * sr) with (Q0 + qr) by (unfold qr; ring).
  lra.
Qed.

(** ** Plain sums *)

Lemma near_zero k t v V s : near k t v V -> near k t (nadd F64 v (S754_zero s)) V.
Proof.
  intros (A & B & C). destruct v as [s'|s'| |s' m x]; try discriminate B; [| exact (conj A (conj B C))].
  assert (E : nadd F64 (S754_zero s') (S754_zero s) = S754_zero (s' && s)) by (destruct s, s'; reflexivity).
  rewrite E. split; [reflexivity |]. split; [reflexivity |]. exact C.
Qed.

Lemma zero_mul s : finite s -> exists b, nmul F64 (nofZ F64 0) s = S754_zero b.
Proof. destruct s as [b|s| |b m k]; try easy; intros _; exists b; destruct b; reflexivity. Qed.
Lemma zero_mul' b s : finite s -> exists b', nmul F64 (S754_zero b) s = S754_zero b'.
Proof. destruct s as [c|s| |c m k]; try easy; intros _; exists (xorb b c); destruct b, c; reflexivity. Qed.

Lemma near_nothing s l k t V : finite s -> Forall known l -> forall v, near k t v V -> near k t (nothing s l v) V.
Proof.
  intros F K. induction K as [|y l [_ (_ & Fy & _)] K IH]; intros v N; [exact N |]. cbn [nothing]. apply IH.
  destruct (zero_mul s F) as [b ->]. destruct (zero_mul' b _ Fy) as [b' ->]. apply near_zero, N.
Qed.

Lemma gather_near l : forall k t m M v V, Forall known l -> 1 <= k -> 0 <= t ->
  (k + INR (List.length l)) * e <= 1 / 16 -> (t + 2 * INR (List.length l)) * e <= 1 / 16 ->
  M + INR (List.length l) * bpow radix2 400 <= bpow radix2 900 -> V + INR (List.length l) * bpow radix2 800 <= bpow radix2 900 ->
  near k t m M -> near k t v V ->
  let n := INR (List.length l) in
  near (k + n) (t + 2 * n) (fst (gather l m v)) (M + sum_means l) /\
  near (k + n) (t + 2 * n) (snd (gather l m v)) (V + sum_squares l) /\
  0 <= sum_means l <= n * bpow radix2 400 /\ 0 <= sum_squares l <= n * bpow radix2 800.
Proof.
  induction l as [|x l IH]; intros k t m M v V K Hk Ht Bk Bt BM BV Nm Nv.
  - cbn -[INR bpow]. change (INR 0) with 0. rewrite !Rmult_0_l, Rmult_0_r, !Rplus_0_r. split; [exact Nm |]. split; [exact Nv |]. lra.
  - inversion K as [|? ? Kx K']; subst. cbn [gather sum_means sum_squares].
    cbn [List.length] in *. rewrite S_INR in *. pose proof (pos_INR (List.length l)) as Pn.
    set (n := INR (List.length l)) in *. pose proof e_pos. pose proof e_small. cbn zeta.
    pose proof (bpow_gt_0 radix2 400) as P400. pose proof (bpow_gt_0 radix2 800) as P800.
    assert (Pn4 : 0 <= n * bpow radix2 400) by (apply Rmult_le_pos; lra).
    assert (Pn8 : 0 <= n * bpow radix2 800) by (apply Rmult_le_pos; lra).
    assert (ne : 0 <= n * e) by (apply Rmult_le_pos; lra).
    destruct Kx as [Kx Ks]. pose proof (between_near _ Kx) as Nx. destruct (near_square _ Ks) as [Ns Bs].
    assert (B48 : bpow radix2 400 <= bpow radix2 900) by (apply bpow_le; lia).
    assert (B88 : bpow radix2 800 <= bpow radix2 900) by (apply bpow_le; lia).
    assert (Bx : 0 <= real (c_mean x) <= bpow radix2 400) by apply Kx.
    assert (Ps : 0 <= real (c_sd x) * real (c_sd x)) by apply Ns.
    assert (S1 : near (k + 1) (t + 2) (nadd F64 m (c_mean x)) (M + real (c_mean x))).
    { eapply near_weaken with (k := k + 1) (t := t + 0 + 1); [lra | lra |]. apply near_add with (k' := 0); try assumption; lra. }
    assert (S2 : near (k + 1) (t + 2) (nadd F64 v (nmul F64 (c_sd x) (c_sd x))) (V + real (c_sd x) * real (c_sd x))).
    { replace (t + 2) with (t + 1 + 1) by ring. apply near_add with (k' := 1); try assumption; lra. }
    apply (near_nothing (c_sd x) l) in S2; [| apply Ks | exact K'].
    destruct (IH (k + 1) (t + 2) _ (M + real (c_mean x)) _ (V + real (c_sd x) * real (c_sd x)) K' ltac:(lra) ltac:(lra) ltac:(lra) ltac:(lra)
       ltac:(lra) ltac:(lra) S1 S2) as (A & B & C1 & C2). fold n in A, B, C1, C2.
    replace (k + (n + 1)) with (k + 1 + n) by ring. replace (t + 2 * (n + 1)) with (t + 2 + 2 * n) by ring.
    rewrite <- !Rplus_assoc. split; [exact A |]. split; [exact B |]. lra.
Qed.

Lemma added_value l : Forall known l -> (List.length l <= 2 ^ 20)%nat ->
  let n := INR (List.length l) in
  let x := added l in
  double (c_mean x) /\ finite (c_mean x) /\ 0 <= real (c_mean x) /\
  Rabs (real (c_mean x) - sum_means l) <= (n + 1) * bpow radix2 (-52) * sum_means l + bpow radix2 (-1000) /\
  double (c_sd x) /\ finite (c_sd x) /\ 0 <= real (c_sd x) /\
  Rabs (real (c_sd x) * real (c_sd x) - sum_squares l) <= (n + 4) * bpow radix2 (-52) * sum_squares l + bpow radix2 (-570).
Proof.
  intros U L n x. pose proof (length_bound _ L) as Bn. fold n in Bn. assert (Pn : 0 <= n) by apply pos_INR.
  pose proof e_pos. pose proof e_small. pose proof tau_pos.
  assert (E32 : bpow radix2 20 * e = bpow radix2 (-32)) by (rewrite <- bpow_plus; reflexivity).
  assert (S32 : bpow radix2 (-32) <= 1 / 1000).
  { apply Rle_trans with (bpow radix2 (-10)); [apply bpow_le; lia |]. change (bpow radix2 (-10)) with (/ 1024). lra. }
  assert (ne : n * e <= bpow radix2 (-32)) by (rewrite <- E32; apply Rmult_le_compat_r; lra).
  assert (n4 : n * bpow radix2 400 <= bpow radix2 420).
  { change 420%Z with (20 + 400)%Z. rewrite bpow_plus. apply Rmult_le_compat_r; [apply bpow_ge_0 | exact Bn]. }
  assert (n8 : n * bpow radix2 800 <= bpow radix2 820).
  { change 820%Z with (20 + 800)%Z. rewrite bpow_plus. apply Rmult_le_compat_r; [apply bpow_ge_0 | exact Bn]. }
  assert (b4 : bpow radix2 420 <= bpow radix2 900) by (apply bpow_le; lia).
  assert (b8 : bpow radix2 820 <= bpow radix2 900) by (apply bpow_le; lia).
  assert (Z : near 1 0 (nofZ F64 0) 0).
  { repeat split; try reflexivity; try (cbn; lra). change (value (nofZ F64 0)) with 0. rewrite Rminus_0_r, Rabs_R0. lra. }
  destruct (gather_near l 1 0 _ 0 _ 0 U ltac:(lra) ltac:(lra) ltac:(fold n; lra) ltac:(fold n; lra) ltac:(fold n; lra) ltac:(fold n; lra) Z Z)
    as (A & B & C1 & C2). fold n in A, B, C1, C2. rewrite !Rplus_0_l in A, B.
  unfold x, added. destruct (gather l (nofZ F64 0) (nofZ F64 0)) as [m v]. cbn [fst snd c_mean c_sd] in *.
  assert (T : 2 * n * tau <= bpow radix2 (-1000)).
  { apply Rle_trans with (bpow radix2 (20 + 1) * tau); [| rewrite <- bpow_plus; apply bpow_le; lia].
    apply Rmult_le_compat_r; [lra |]. rewrite <- big_double. lra. }
  destruct A as (Vm & Fm & Pm & PM & Em).
  split; [exact Vm |]. split; [apply finite_same; exact Fm |]. split; [exact Pm |].
  split; [change (real m) with (value m); lra |].
  destruct B as (Vv & Fv & Pv & PV & Ev). destruct (root_near v Vv Fv Pv) as (Vr & Fr & Pr & Er).
  split; [exact Vr |]. split; [apply finite_same; exact Fr |]. split; [exact Pr |].
  set (S := sum_squares l) in *. change (real (root v)) with (value (root v)). set (z := value (root v)) in *.
  assert (eS : e * S <= 1 / 1000000 * S) by (apply Rmult_le_compat_r; lra). assert (0 <= e * S) by (apply Rmult_le_pos; lra).
  assert (nS : n * e * S <= 1 / 1000 * S) by (apply Rmult_le_compat_r; lra).
  assert (K1 : bpow radix2 (-1000) <= 1) by (change 1 with (bpow radix2 0); apply bpow_le; lia).
  apply Rabs_le_inv in Ev.
  pose proof (one_big 900 ltac:(lia)).
  assert (B9 : value v <= bpow radix2 901).
  { assert (2 * (2 * bpow radix2 820) <= bpow radix2 900) by (rewrite !big_double; apply bpow_le; lia).
    change 901%Z with (900 + 1)%Z. rewrite <- big_double. lra. }
  specialize (Er B9).
  assert (ev : e * value v <= e * (3 / 2 * S + bpow radix2 (-1000))) by (apply Rmult_le_compat_l; lra).
  assert (e * bpow radix2 (-1000) <= 1 * bpow radix2 (-1000)) by (apply Rmult_le_compat_r; [apply bpow_ge_0 | lra]).
  assert (G : bpow radix2 (-580) + 4 * bpow radix2 (-1000) <= bpow radix2 (-570)).
  { assert (bpow radix2 (-1000) <= bpow radix2 (-580)) by (apply bpow_le; lia).
    apply Rle_trans with (bpow radix2 (-577)); [| apply bpow_le; lia]. change (-577)%Z with (-580 + 1 + 1 + 1)%Z. rewrite <- !big_double.
    pose proof (bpow_ge_0 radix2 (-580)). lra. }
  pose proof (bpow_ge_0 radix2 (-1000)). replace (z * z - S) with ((z * z - value v) + (value v - S)) by ring. apply Rabs_le_inv in Er. apply Rabs_le. lra.
Qed.
