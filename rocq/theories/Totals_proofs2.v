(** * Total, weighted and added costs in double precision (C94) *)
From Coq Require Import ZArith Reals List Lra Lia Floats.SpecFloat.
From Flocq Require Import Core Relative BinarySingleNaN.
From Verif Require Import Num Double_spec Double_proofs Double_proofs2 Maq_return_proofs Group Totals Totals_spec Totals_proofs.
Import ListNotations.
Local Open Scope R_scope.
Local Instance p53i : Prec_gt_0 53 := eq_refl.
Local Instance e1024i : Prec_lt_emax 53 1024 := eq_refl.

(** ** Fates *)

Lemma finite_same x : finite x <-> finite_ x.
Proof. destruct x; cbn; split; easy. Qed.

Lemma zero_chance : chance (nofZ F64 0).
Proof. repeat split; try reflexivity; cbn; lra. Qed.

Lemma one_value : double (nofZ F64 1) /\ finite_ (nofZ F64 1) /\ value (nofZ F64 1) = 1.
Proof.
  split; [reflexivity|]. split; [reflexivity|]. change (nofZ F64 1) with (S754_finite false 4503599627370496 (-52)).
  unfold value, SF2R, F2R. cbn [cond_Zopp Fnum Fexp]. change (bpow radix2 (-52)) with (/ IZR (2 ^ 52)).
  change (IZR (Z.pos 4503599627370496)) with (IZR (2 ^ 52)).
  assert (IZR (2 ^ 52) <> 0) by (apply not_0_IZR; discriminate). field. assumption.
Qed.

Lemma unit_err r : 0 <= r <= 1 -> Rabs (rnd 53 1024 r - r) <= bpow radix2 (-54).
Proof.
  intros Hr. pose proof (bpow_gt_0 radix2 (-54)) as P.
  destruct (Req_dec r 0) as [-> | H0].
  { rewrite rnd_0. rewrite Rminus_0_r, Rabs_R0. lra. }
  destruct (Req_dec r 1) as [-> | H2].
  { assert (E : rnd 53 1024 1 = 1) by (change 1 with (bpow radix2 0); apply (rnd_power 53 1024); cbv; discriminate).
    rewrite E. replace (1 - 1) with 0 by lra. rewrite Rabs_R0. lra. }
  change (rnd 53 1024 r) with (round radix2 (FLT_exp (3 - 1024 - 53) 53) ZnearestE r).
  eapply Rle_trans; [apply error_le_half_ulp; apply FLT_exp_valid; reflexivity|].
  rewrite ulp_neq_0 by exact H0.
  replace (bpow radix2 (-54)) with (/ 2 * bpow radix2 (-53)).
  2:{ change (-54)%Z with (-1 + -53)%Z. rewrite bpow_plus. reflexivity. }
  apply Rmult_le_compat_l; [lra|]. apply bpow_le. unfold cexp, FLT_exp.
  assert (mag radix2 r <= 0)%Z; [|lia].
  apply mag_le_bpow; [exact H0|]. rewrite Rabs_pos_eq by lra. change (bpow radix2 0) with 1. lra.
Qed.

Lemma unit_top r : r <= 1 + bpow radix2 (-54) -> rnd 53 1024 r <= 1.
Proof.
  intros H. change (rnd 53 1024 r) with (round radix2 (FLT_exp (-1074) 53) ZnearestE r).
  assert (F1 : generic_format radix2 (FLT_exp (-1074) 53) 1).
  { change 1 with (bpow radix2 0). apply generic_format_bpow. cbv. discriminate. }
  apply round_N_le_midp; [apply FLT_exp_valid; reflexivity | exact F1 |].
  rewrite succ_eq_pos by lra. pose proof (ulp_bpow radix2 (FLT_exp (-1074) 53) 0) as UB.
  change (bpow radix2 0) with 1 in UB. rewrite UB. change (FLT_exp (-1074) 53 (0 + 1)) with (-52)%Z.
  assert (bpow radix2 (-54) = bpow radix2 (-52) / 4).
  { change (-54)%Z with (-52 + -2)%Z. rewrite bpow_plus. change (bpow radix2 (-2)) with (/ 4). reflexivity. }
  pose proof e_pos. lra.
Qed.

(** A difference of probabilities. *)
Lemma chance_sub p q : chance p -> chance q -> real p <= real q ->
  chance (nsub F64 q p) /\ real (nsub F64 q p) = rnd 53 1024 (real q - real p).
Proof.
  intros (Vp & Fp & Bp) (Vq & Fq & Bq) L. apply finite_same in Fp. apply finite_same in Fq.
  change (real p) with (value p) in *. change (real q) with (value q) in *.
  destruct (sub_value 53 1024 p53 e1024 q p Vq Vp Fq Fp) as [F E]; [apply small_ok'; lra |].
  destruct one_value as (V1 & _ & E1).
  split; [| exact E]. split; [apply (valid_sub 53 1024 p53 e1024); assumption |]. split; [apply finite_same; exact F |].
  change (real (nsub F64 q p)) with (value (SFsub 53 1024 q p)). rewrite E.
  pose proof (rnd_up_to (nofZ F64 1) (value q - value p) V1 ltac:(lra)). lra.
Qed.

Lemma fates_sound c : sound c ->
  chance (p_repair c) /\ chance (p_demolition c) /\ chance (p_collapse c) /\
  Rabs (real (p_repair c) + real (p_demolition c) + real (p_collapse c) - 1) <= bpow radix2 (-52).
Proof.
  intros S. destruct one_value as (V1 & F1 & E1). pose proof (bpow_gt_0 radix2 (-54)) as P54.
  assert (C : chance (p_collapse c)).
  { unfold sound, p_collapse in *. destruct (ch_collapse c), (ch_demolition c); try apply zero_chance; tauto. }
  assert (D : chance (p_demolition c) /\ real (p_demolition c) + real (p_collapse c) <= 1 + bpow radix2 (-54)).
  { unfold p_demolition. destruct (ch_demolition c) as [q|] eqn:Eq.
    - assert (Q : chance q /\ real (p_collapse c) <= real q).
      { unfold sound, p_collapse in *. rewrite Eq in S. destruct (ch_collapse c) as [p|]; [tauto |].
        split; [exact S |]. destruct S as (_ & _ & B). cbn. lra. }
      destruct Q as [Q L]. destruct (chance_sub _ _ C Q L) as [X E]. split; [exact X |]. rewrite E.
      destruct C as (_ & _ & BC). destruct Q as (_ & _ & BQ).
      pose proof (unit_err (real q - real (p_collapse c)) ltac:(lra)) as U. apply Rabs_le_inv in U. lra.
    - split; [apply zero_chance |]. destruct C as (_ & _ & B). cbn. cbn in B. lra. }
  destruct D as [D T].
  assert (A : chance (nadd F64 (p_demolition c) (p_collapse c)) /\
    real (nadd F64 (p_demolition c) (p_collapse c)) = rnd 53 1024 (real (p_demolition c) + real (p_collapse c))).
  { destruct C as (Vc & Fc & Bc). destruct D as (Vd & Fd & Bd). apply finite_same in Fc. apply finite_same in Fd.
    change (real (p_collapse c)) with (value (p_collapse c)) in *. change (real (p_demolition c)) with (value (p_demolition c)) in *.
    destruct (add_value 53 1024 p53 e1024 _ _ Vd Vc Fd Fc ltac:(apply small_ok'; lra)) as [Fs Es].
    split; [| exact Es]. split; [apply (valid_add 53 1024 p53 e1024); assumption |]. split; [apply finite_same; exact Fs |].
    change (real (nadd F64 (p_demolition c) (p_collapse c))) with (value (SFadd 53 1024 (p_demolition c) (p_collapse c))).
    rewrite Es. split; [apply rnd_nonneg; lra | apply unit_top; exact T]. }
  destruct A as [A E].
  assert (O : chance (nofZ F64 1)).
  { split; [exact V1 |]. split; [apply finite_same; exact F1 |]. change (real (nofZ F64 1)) with (value (nofZ F64 1)). lra. }
  destruct (chance_sub _ _ A O) as [R ER]; [change (real (nofZ F64 1)) with (value (nofZ F64 1)); destruct A as (_ & _ & BA); lra |].
  split; [exact R |]. split; [exact D |]. split; [exact C |].
  change (real (p_repair c)) with (real (nsub F64 (nofZ F64 1) (nadd F64 (p_demolition c) (p_collapse c)))).
  rewrite ER. change (real (nofZ F64 1)) with (value (nofZ F64 1)). rewrite E1.
  destruct A as (_ & _ & BA). destruct C as (_ & _ & BC). destruct D as (_ & _ & BD).
  pose proof (sum_err (1 - real (nadd F64 (p_demolition c) (p_collapse c))) ltac:(lra)) as U1.
  pose proof (sum_err (real (p_demolition c) + real (p_collapse c)) ltac:(lra)) as U2.
  rewrite <- E in U2. rewrite e_half in U1, U2. apply Rabs_le_inv in U1. apply Rabs_le_inv in U2. apply Rabs_le. lra.
Qed.

(** ** Total cost *)

Lemma between_near x : amount x -> near 0 0 x (real x).
Proof. intros (V & F & B). apply near_exact; [assumption | assumption | lra]. Qed.

(** One more fate. *)
Lemma fate_step k t acc A p v V : 3 <= k -> 0 <= t -> k * e <= 1 / 16 -> (t + 4) * e <= 1 / 16 ->
  A <= bpow radix2 900 -> V <= bpow radix2 801 -> near k t acc A -> near 2 3 v V -> chance p ->
  near (k + 1) (t + 5) (if nltb F64 (nofZ F64 0) p then nadd F64 acc (nmul F64 v p) else acc) (A + real p * V).
Proof.
  intros Hk Ht Bk Bt BA BV NA NV C. pose proof e_pos. pose proof e_small.
  assert (C' := C). destruct C' as (Vp & Fp & Bp). apply finite_same in Fp.
  assert (PV : 0 <= V) by apply NV.
  assert (B801 : bpow radix2 801 <= bpow radix2 900) by (apply bpow_le; lia).
  destruct (nltb F64 (nofZ F64 0) p) eqn:L.
  - replace (t + 5) with (t + 4 + 1) by ring.
    apply near_add with (k' := 3); try assumption; try lra.
    + apply Rle_trans with (1 * V); [apply Rmult_le_compat_r; lra | lra].
    + replace 3 with (2 + 1) by ring. replace 4 with (3 + 1) by ring. apply near_scale; try assumption; try lra.
  - assert (Z : real p = 0).
    { change (nltb F64 (nofZ F64 0) p) with (SFltb (S754_zero false) p) in L.
      change (real p) with (value p) in *.
      destruct (Rle_lt_or_eq_dec 0 (value p)) as [G | G]; [lra | | now rewrite <- G].
      exfalso. assert (X : SFltb (S754_zero false) p = true) by (apply (ltb_value 53 1024); [reflexivity | exact Vp | reflexivity | exact Fp | exact G]).
      congruence. }
    rewrite Z, Rmult_0_l, Rplus_0_r. eapply near_weaken; [| | exact NA]; lra.
Qed.

(** Squares and means of a mixture. *)
Lemma mean_square a b c x y z : 0 <= a -> 0 <= b -> 0 <= c ->
  (a * x + b * y + c * z) * (a * x + b * y + c * z) <= (a + b + c) * (a * (x * x) + b * (y * y) + c * (z * z)).
Proof.
  intros A B C.
  assert (0 <= a * b * ((x - y) * (x - y))) by (apply Rmult_le_pos; [apply Rmult_le_pos; lra | apply Rle_0_sqr]).
  assert (0 <= a * c * ((x - z) * (x - z))) by (apply Rmult_le_pos; [apply Rmult_le_pos; lra | apply Rle_0_sqr]).
  assert (0 <= b * c * ((y - z) * (y - z))) by (apply Rmult_le_pos; [apply Rmult_le_pos; lra | apply Rle_0_sqr]).
  lra.
Qed.

Lemma total_values c r d b : sound c -> known r -> known d -> known b ->
  let l := three c r d b in
  let M := mixture_mean l in
  let Q := mixture_square l in
  let v := total_mean_var F64 (c_mean r) (c_sd r) (c_mean d) (c_sd d) (c_mean b) (c_sd b) (p_repair c) (p_demolition c) (p_collapse c) in
  near 5 14 (fst v) M /\ double (snd v) /\ finite_ (snd v) /\ 0 <= Q /\ Q <= bpow radix2 810 /\ M * M <= (1 + e) * Q /\
  Rabs (value (snd v) - (Q - M * M)) <= 6 * e * Q + 17 * e * (M * M) + bpow radix2 (-580).
Proof.
  intros S [Rm Rs] [Dm Ds] [Bm Bs] l M Q v. destruct (fates_sound c S) as (CR & CD & CC & T).
  destruct (near_moment r (conj Rm Rs)) as [Nr Br]. destruct (near_moment d (conj Dm Ds)) as [Nd Bd].
  destruct (near_moment b (conj Bm Bs)) as [Nb Bb].
  assert (W : forall x, amount x -> near 2 3 x (real x) /\ 0 <= real x <= bpow radix2 801).
  { intros x A. split; [eapply near_weaken; [| | apply between_near; exact A]; lra |].
    destruct A as (_ & _ & B). assert (bpow radix2 400 <= bpow radix2 801) by (apply bpow_le; lia). lra. }
  destruct (W _ Rm) as [NRm BRm]. destruct (W _ Dm) as [NDm BDm]. destruct (W _ Bm) as [NBm BBm].
  pose proof e_pos. pose proof e_small.
  assert (B801 : bpow radix2 801 <= bpow radix2 900) by (apply bpow_le; lia).
  pose proof (one_big 801 ltac:(lia)) as O8.
  assert (X4 : 2 * (2 * bpow radix2 801) <= bpow radix2 900) by (rewrite !big_double; apply bpow_le; lia).
  assert (B810 : 2 * (2 * bpow radix2 801) <= bpow radix2 810) by (rewrite !big_double; apply bpow_le; lia).
  assert (SC : forall p V, chance p -> 0 <= V -> 0 <= real p * V <= V).
  { intros p V (_ & _ & B) P. split; [apply Rmult_le_pos; lra |]. rewrite <- (Rmult_1_l V) at 2. apply Rmult_le_compat_r; lra. }
  assert (G : forall vr vd vb Vr Vd Vb, near 2 3 vr Vr -> near 2 3 vd Vd -> near 2 3 vb Vb ->
     Vr <= bpow radix2 801 -> Vd <= bpow radix2 801 -> Vb <= bpow radix2 801 ->
     near 5 14 (over_fates F64 vr vd vb (p_repair c) (p_demolition c) (p_collapse c))
       (real (p_repair c) * Vr + real (p_demolition c) * Vd + real (p_collapse c) * Vb)).
  { intros vr vd vb Vr Vd Vb Hr Hd Hb Lr Ld Lb. unfold over_fates.
    pose proof (SC _ Vr CR ltac:(apply Hr)). pose proof (SC _ Vd CD ltac:(apply Hd)). pose proof (SC _ Vb CC ltac:(apply Hb)).
    replace 5 with (4 + 1) by ring. replace 14 with (9 + 5) by ring.
    apply fate_step; try assumption; try lra.
    replace 4 with (3 + 1) by ring. replace 9 with (3 + 1 + 5) by ring.
    apply fate_step; try assumption; try lra.
    replace 3 with (2 + 1) at 1 by ring. apply near_scale; try assumption; lra. }
  pose proof (G _ _ _ _ _ _ NRm NDm NBm ltac:(lra) ltac:(lra) ltac:(lra)) as Gm.
  pose proof (G _ _ _ _ _ _ Nr Nd Nb Br Bd Bb) as Gq.
  assert (EM : M = real (p_repair c) * real (c_mean r) + real (p_demolition c) * real (c_mean d) + real (p_collapse c) * real (c_mean b))
    by (unfold M, l, three; cbn [mixture_mean]; ring).
  assert (EQ : Q = real (p_repair c) * (real (c_mean r) * real (c_mean r) + real (c_sd r) * real (c_sd r)) +
     real (p_demolition c) * (real (c_mean d) * real (c_mean d) + real (c_sd d) * real (c_sd d)) +
     real (p_collapse c) * (real (c_mean b) * real (c_mean b) + real (c_sd b) * real (c_sd b)))
    by (unfold Q, l, three; cbn [mixture_square]; ring).
  rewrite <- EM in Gm. rewrite <- EQ in Gq.
  assert (SQ : forall x, 0 <= x * x) by (intros x; apply Rle_0_sqr).
  assert (BQ : 0 <= Q <= bpow radix2 810).
  { pose proof (SC _ _ CR ltac:(apply Nr)). pose proof (SC _ _ CD ltac:(apply Nd)). pose proof (SC _ _ CC ltac:(apply Nb)).
    rewrite EQ. lra. }
  assert (BM : M <= bpow radix2 430).
  { pose proof (SC _ _ CR (proj1 BRm)). pose proof (SC _ _ CD (proj1 BDm)). pose proof (SC _ _ CC (proj1 BBm)).
    destruct Rm as (_ & _ & R1). destruct Dm as (_ & _ & D1). destruct Bm as (_ & _ & B1).
    apply Rle_trans with (2 * (2 * bpow radix2 400)); [rewrite EM; lra |]. rewrite !big_double. apply bpow_le. lia. }
  assert (J : M * M <= (1 + e) * Q).
  { rewrite EM. destruct CR as (_ & _ & R1). destruct CD as (_ & _ & D1). destruct CC as (_ & _ & C1).
    eapply Rle_trans; [apply mean_square; lra |]. apply Rabs_le_inv in T.
    assert (Q' : real (p_repair c) * (real (c_mean r) * real (c_mean r)) + real (p_demolition c) * (real (c_mean d) * real (c_mean d)) +
       real (p_collapse c) * (real (c_mean b) * real (c_mean b)) <= Q).
    { rewrite EQ.
      pose proof (Rmult_le_pos _ _ (proj1 R1) (SQ (real (c_sd r)))). pose proof (Rmult_le_pos _ _ (proj1 D1) (SQ (real (c_sd d)))).
      pose proof (Rmult_le_pos _ _ (proj1 C1) (SQ (real (c_sd b)))). lra. }
    apply Rmult_le_compat; [lra | | lra | exact Q'].
    pose proof (Rmult_le_pos _ _ (proj1 R1) (SQ (real (c_mean r)))). pose proof (Rmult_le_pos _ _ (proj1 D1) (SQ (real (c_mean d)))).
    pose proof (Rmult_le_pos _ _ (proj1 C1) (SQ (real (c_mean b)))). lra. }
  split; [exact Gm |].
  assert (B819 : bpow radix2 810 <= bpow radix2 900) by (apply bpow_le; lia).
  destruct (variance_value 5 14 5 14 _ _ Q M ltac:(lra) ltac:(lra) ltac:(lra) ltac:(lra) ltac:(lra) ltac:(lra) ltac:(lra) ltac:(lra)
     ltac:(lra) BM Gq Gm) as (V1 & V2 & V3).
  split; [exact V1 |]. split; [exact V2 |]. split; [lra |]. split; [lra |]. split; [exact J |].
  eapply Rle_trans; [exact V3 |]. lra.
Qed.

(** The total cost: its mean always, its deviation unless it is next to nothing. *)
Lemma total_right c r d b : sound c -> known r -> known d -> known b ->
  let l := three c r d b in
  let x := total c r d b in
  (double (c_mean x) /\ finite (c_mean x) /\ 0 <= real (c_mean x) /\
   Rabs (real (c_mean x) - mixture_mean l) <= bpow radix2 (-49) * mixture_mean l + bpow radix2 (-1070)) /\
  (bpow radix2 (-47) * mixture_square l + bpow radix2 (-570) <= mixture_variance l ->
   double (c_sd x) /\ finite (c_sd x) /\ 0 <= real (c_sd x) /\
   Rabs (real (c_sd x) * real (c_sd x) - mixture_variance l) <= bpow radix2 (-47) * mixture_square l + bpow radix2 (-570)).
Proof.
  intros S Kr Kd Kb l x. destruct (total_values c r d b S Kr Kd Kb) as (N & V & F & PQ & BQ & J & E). fold l in N, PQ, BQ, J, E.
  unfold x, total. set (tv := total_mean_var _ _ _ _ _ _ _ _ _ _) in *. destruct tv as [m v]. cbn [fst snd c_mean c_sd] in *.
  pose proof e_pos. pose proof e_small. pose proof tau_pos.
  assert (P49 : 8 * e = bpow radix2 (-49)).
  { change (-49)%Z with (3 + -52)%Z. rewrite bpow_plus. reflexivity. }
  assert (P47 : 32 * e = bpow radix2 (-47)).
  { change (-47)%Z with (5 + -52)%Z. rewrite bpow_plus. reflexivity. }
  assert (P1070 : 16 * tau = bpow radix2 (-1070)).
  { change (-1070)%Z with (4 + -1074)%Z. rewrite bpow_plus. reflexivity. }
  split.
  - destruct N as (Vm & Fm & Pm & PM & Em). split; [exact Vm |]. split; [apply finite_same; exact Fm |]. split; [exact Pm |].
    change (real m) with (value m). rewrite <- P49, <- P1070.
    assert (0 <= e * mixture_mean l) by (apply Rmult_le_pos; lra). lra.
  - intros L. rewrite <- P47 in L. unfold mixture_variance in *. set (M := mixture_mean l) in *. set (Q := mixture_square l) in *.
    set (g := bpow radix2 (-580)) in *. assert (Pg : 0 < g) by apply bpow_gt_0.
    assert (G : 4 * g <= bpow radix2 (-570)).
    { apply Rle_trans with (bpow radix2 2 * g); [change (bpow radix2 2) with 4; lra |]. unfold g. rewrite <- bpow_plus. apply bpow_le. lia. }
    assert (eJ : e * (M * M) <= e * Q + e * (e * Q)).
    { replace (e * Q + e * (e * Q)) with (e * ((1 + e) * Q)) by ring. apply Rmult_le_compat_l; lra. }
    assert (0 <= e * Q) by (apply Rmult_le_pos; lra).
    assert (ee : e * (e * Q) <= 1 / 1000000 * (e * Q)) by (apply Rmult_le_compat_r; lra).
    assert (E' : Rabs (value v - (Q - M * M)) <= 24 * e * Q + g) by lra.
    assert (Pv : 0 <= value v) by (apply Rabs_le_inv in E'; lra).
    assert (0 <= M * M) by apply Rle_0_sqr.
    assert (eQ : e * Q <= 1 / 1000000 * Q) by (apply Rmult_le_compat_r; lra).
    assert (vQ : value v <= 2 * Q + g) by (apply Rabs_le_inv in E'; lra).
    assert (Bv : value v <= bpow radix2 901).
    { pose proof (one_big 810 ltac:(lia)). assert (g <= 1) by (change 1 with (bpow radix2 0); unfold g; apply bpow_le; lia).
      apply Rle_trans with (2 * (2 * bpow radix2 810)); [lra |]. rewrite !big_double. apply bpow_le. lia. }
    destruct (root_near v V F Pv) as (Vr & Fr & Pr & Er). specialize (Er Bv). fold g in Er.
    split; [exact Vr |]. split; [apply finite_same; exact Fr |]. split; [exact Pr |].
    change (real (root v)) with (value (root v)). rewrite <- P47.
    replace (value (root v) * value (root v) - (Q - M * M))
      with ((value (root v) * value (root v) - value v) + (value v - (Q - M * M))) by ring.
    eapply Rle_trans; [apply Rabs_triang |].
    assert (e * value v <= e * (2 * Q + g)) by (apply Rmult_le_compat_l; lra).
    assert (e * g <= 1 / 1000000 * g) by (apply Rmult_le_compat_r; lra). lra.
Qed.
