(** * The deviation given back, and the spread given intensity (C96) *)
From Coq Require Import ZArith Reals List Lra Lia Floats.SpecFloat.
From Flocq Require Import Core Relative BinarySingleNaN.
From Verif Require Import Num Double_spec Double_proofs Double_proofs2 Maq_return_proofs Group Totals Totals_spec
  Totals_proofs Totals_proofs2 Totals_proofs3 Totals_proofs4 Totals_proofs6 Totals_proofs7 Spread Spread_spec Spread_proofs2.
Local Open Scope R_scope.
Local Instance p53i : Prec_gt_0 53 := eq_refl.
Local Instance e1024i : Prec_lt_emax 53 1024 := eq_refl.

(** ** The deviation *)

(** Multiplied and squared, but for roundings. *)
Lemma product_square X z m : 0 <= X -> 0 <= z -> bpow radix2 (-60) <= m -> Rabs (z - X) <= e / 2 * X + tau / 2 ->
  Rabs (z * z - X * X) <= 4 * e * (m * m + X * X).
Proof.
  intros PX Pz Hm H. pose proof e_pos. pose proof e_small. pose proof tau_pos. pose proof (bpow_gt_0 radix2 (-60)) as P60.
  assert (tm : tau <= e * m).
  { apply Rle_trans with (e * bpow radix2 (-60)); [rewrite <- bpow_plus; apply bpow_le; lia | apply Rmult_le_compat_l; lra]. }
  assert (0 <= e * X) by (apply Rmult_le_pos; lra).
  assert (D : Rabs (z - X) <= e / 2 * (m + X)) by lra.
  assert (S : Rabs (z + X) <= 3 * (m + X)).
  { rewrite Rabs_pos_eq by lra. apply Rabs_le_inv in D. assert (e / 2 * (m + X) <= 1 * (m + X)) by (apply Rmult_le_compat_r; lra). lra. }
  replace (z * z - X * X) with ((z - X) * (z + X)) by ring. rewrite Rabs_mult.
  apply Rle_trans with (e / 2 * (m + X) * (3 * (m + X))).
  { apply Rmult_le_compat; try apply Rabs_pos; assumption. }
  replace (e / 2 * (m + X) * (3 * (m + X))) with (3 / 2 * e * ((m + X) * (m + X))) by field.
  assert (K : (m + X) * (m + X) <= 2 * (m * m + X * X)) by (pose proof (Rle_0_sqr (m - X)) as Q; unfold Rsqr in Q; lra).
  apply Rle_trans with (3 / 2 * e * (2 * (m * m + X * X))); [apply Rmult_le_compat_l; lra |].
  assert (0 <= e * (m * m + X * X)).
  { apply Rmult_le_pos; [lra |]. assert (0 <= m * m) by (apply Rmult_le_pos; lra). assert (0 <= X * X) by (apply Rmult_le_pos; lra). lra. }
  lra.
Qed.

Lemma made_deviation log ex x : accurate log -> exponential ex -> between (bpow radix2 (-60)) (bpow radix2 430) (c_mean x) ->
  between 0 (bpow radix2 420) (c_sd x) -> real (c_sd x) <= bpow radix2 300 * real (c_mean x) ->
  let m := real (c_mean x) in let s := real (c_sd x) in let z := sd_of ex (made log x) in
  double z /\ finite z /\ 0 <= real z /\ Rabs (real z * real z - s * s) <= bpow radix2 (-34) * (m * m + s * s).
Proof.
  intros A X BM BS Q. cbn zeta. pose proof (made_variance log x A BM BS) as BV. destruct (made_right log x A BM BS) as (Fi & E & _).
  destruct (made_back log ex x A X BM BS) as (Vk & Fk & Ek). destruct (half_square _ BV) as (Vg & Fg & _ & _ & _ & Eg & Bg & _).
  destruct BM as (Vm & Fm & Bm). destruct BS as (Vs & Fs & Bs). set (m := real (c_mean x)) in *. set (s := real (c_sd x)) in *.
  destruct (made log x) as [mu sigma] eqn:Ed. unfold sd_of. cbn [fst snd] in *. set (M := mean_of ex (mu, sigma)) in *.
  set (gg := nmul F64 sigma sigma) in *. set (v := ln (1 + s * s / (m * m))) in *.
  replace (neqb F64 mu (S754_infinity true)) with false.
  2: { destruct Fi as ((_ & Fmu) & _). cbn in Fmu. apply finite_same in Fmu. destruct mu as [|[]| |[] ? ?]; try discriminate; reflexivity. }
  pose proof e_pos. pose proof e_small. pose proof tau_e. pose proof tau_pos. pose proof (bpow_gt_0 radix2 (-60)) as P60.
  change (real sigma) with (value sigma) in *.
  assert (E38 : 16384 * e = bpow radix2 (-38)) by (change (-38)%Z with (14 + -52)%Z; rewrite bpow_plus; reflexivity).
  assert (E39 : 8192 * e = bpow radix2 (-39)) by (change (-39)%Z with (13 + -52)%Z; rewrite bpow_plus; reflexivity).
  assert (E34 : 262144 * e = bpow radix2 (-34)) by (change (-34)%Z with (18 + -52)%Z; rewrite bpow_plus; reflexivity).
  rewrite <- E38 in E. rewrite <- E39 in Ek. rewrite <- E34. apply Rabs_le_inv in E. apply Rabs_le_inv in Eg. apply Rabs_le_inv in Ek.
  assert (PM2 : 0 < m * m) by (apply Rmult_lt_0_compat; lra). assert (PS2 : 0 <= s * s) by (apply Rmult_le_pos; lra).
  (* the ratio *)
  set (A1 := 1 + s * s / (m * m)) in *.
  assert (RB : 0 <= s * s / (m * m) <= bpow radix2 600).
  { split; [apply Rmult_le_pos; [lra | apply Rlt_le, Rinv_0_lt_compat; lra] |]. apply Rmult_le_reg_r with (m * m); [exact PM2 |].
    unfold Rdiv. rewrite Rmult_assoc, Rinv_l, Rmult_1_r by lra. change 600%Z with (300 + 300)%Z. rewrite bpow_plus.
    replace (bpow radix2 300 * bpow radix2 300 * (m * m)) with ((bpow radix2 300 * m) * (bpow radix2 300 * m)) by ring. apply Rmult_le_compat; lra. }
  assert (HA : 1 <= A1 <= bpow radix2 601).
  { unfold A1. split; [lra |]. pose proof (one_big 600 ltac:(lia)). change 601%Z with (600 + 1)%Z. rewrite <- big_double. lra. }
  assert (V0 : 0 <= v <= 541).
  { unfold v. fold A1. pose proof ln2_top. pose proof ln_lt_2. split.
    - rewrite <- ln_1. destruct (proj1 HA) as [K | <-]; [left; apply ln_increasing; lra | right; reflexivity].
    - assert (ln A1 <= ln (bpow radix2 601)) by (destruct (proj2 HA) as [K | ->]; [left; apply ln_increasing; lra | right; reflexivity]).
      rewrite ln_bpow in H5. lra. }
  destruct (X gg Vg) as (Vx & Fx & Ex & Lx & _); [apply finite_same; exact Fg | change (real gg) with (value gg); apply Rabs_le; lra |].
  change (real gg) with (value gg) in *. specialize (Lx ltac:(lra)). rewrite e50 in Ex.
  assert (EE : exp (value gg) = A1 * exp (value gg - v)).
  { rewrite <- (exp_ln A1) at 1 by lra. fold v. rewrite <- exp_plus. f_equal. unfold v. ring. }
  assert (DT : Rabs (value gg - v) <= 16897 * e) by (apply Rabs_le; lra).
  pose proof (exp_close (value gg - v) ltac:(lra)) as XC. set (y := exp (value gg - v)) in *.
  assert (XC' : Rabs (y - 1) <= 33794 * e) by lra. apply Rabs_le_inv in XC'. rewrite EE in Ex. apply Rabs_le_inv in Ex.
  assert (T1 : A1 * y <= A1 * (1 + 33794 * e)) by (apply Rmult_le_compat_l; lra).
  assert (T2 : A1 * (1 - 33794 * e) <= A1 * y) by (apply Rmult_le_compat_l; lra).
  assert (T3 : e * (A1 * y) <= e * (A1 * 2)) by (apply Rmult_le_compat_l; [lra |]; apply Rmult_le_compat_l; lra).
  set (Y := ex gg) in *. change (real Y) with (value Y) in *. apply finite_same in Fx.
  assert (PA : 0 <= e * A1) by (apply Rmult_le_pos; lra).
  assert (BY : Rabs (value Y - A1) <= 33803 * (e * A1)) by (apply Rabs_le; lra). apply Rabs_le_inv in BY.
  assert (TopY : value Y <= 2 * A1).
  { assert (33803 * (e * A1) <= A1); [| lra]. replace (33803 * (e * A1)) with (33803 * e * A1) by ring. rewrite <- (Rmult_1_l A1) at 2.
    apply Rmult_le_compat_r; lra. }
  assert (B602 : 2 * A1 <= bpow radix2 602) by (change 602%Z with (601 + 1)%Z; rewrite <- big_double; lra).
  destruct one_value as (Vo & Fo & Eo).
  destruct (sub_value 53 1024 p53 e1024 Y (nofZ F64 1) Vx Vo Fx Fo) as [F1 E1].
  { rewrite Eo. apply (small_top 602); [lia |]. rewrite Rabs_pos_eq; lra. }
  pose proof (valid_sub 53 1024 p53 e1024 Y (nofZ F64 1) Vx Vo) as V1. rewrite Eo in E1.
  change (nsub F64 Y (nofZ F64 1)) with (SFsub 53 1024 Y (nofZ F64 1)). set (w := SFsub 53 1024 Y (nofZ F64 1)) in *.
  pose proof (rnd_err (value Y - 1)) as RW. rewrite <- E1 in RW. rewrite (Rabs_pos_eq (value Y - 1)) in RW by lra. apply Rabs_le_inv in RW.
  assert (Pw : 0 <= value w) by (rewrite E1; apply rnd_nonneg; lra).
  assert (eY : e * value Y <= e * (2 * A1)) by (apply Rmult_le_compat_l; lra).
  assert (eA : e <= e * A1) by (rewrite <- (Rmult_1_r e) at 1; apply Rmult_le_compat_l; lra).
  assert (BW : - (33806 * (e * A1)) <= value w - s * s / (m * m) <= 33806 * (e * A1)) by (unfold A1 in *; lra).
  assert (TopW : value w <= 2 * A1).
  { assert (33806 * (e * A1) <= A1); [| unfold A1 in *; lra]. replace (33806 * (e * A1)) with (33806 * e * A1) by ring. rewrite <- (Rmult_1_l A1) at 2.
    apply Rmult_le_compat_r; lra. }
  destruct (root_near w V1 F1 Pw) as (Vr & Fr & Pr & Rr).
  specialize (Rr ltac:(apply Rle_trans with (bpow radix2 602); [lra | apply bpow_le; lia])).
  set (r := root w) in *. apply Rabs_le_inv in Rr.
  assert (g : bpow radix2 (-580) <= 1 / 1000000 * e).
  { assert (bpow radix2 (-580) <= e * e) by (rewrite <- bpow_plus; apply bpow_le; lia). assert (e * e <= 1 / 1000000 * e) by (apply Rmult_le_compat_r; lra). lra. }
  assert (ew : e * value w <= e * (2 * A1)) by (apply Rmult_le_compat_l; lra). assert (ew0 : 0 <= e * value w) by (apply Rmult_le_pos; lra).
  assert (BR : - (33812 * (e * A1)) <= value r * value r - s * s / (m * m) <= 33812 * (e * A1)) by lra.
  (* the product *)
  change (real M) with (value M) in *. apply finite_same in Fk.
  assert (em : e * m <= 1 / 1000000 * m) by (apply Rmult_le_compat_r; lra).
  assert (PM : 0 <= value M <= 2 * m) by lra.
  assert (TopR : value r <= bpow radix2 302).
  { apply root_bound; [exact Pr | apply bpow_ge_0 |]. rewrite <- bpow_plus. change (302 + 302)%Z with 604%Z.
    apply Rle_trans with (bpow radix2 603); [| apply bpow_le; lia]. change 603%Z with (602 + 1)%Z. rewrite <- big_double.
    assert (e * A1 <= 1 / 1000000 * A1) by (apply Rmult_le_compat_r; lra). unfold A1 in *. lra. }
  assert (XB : 0 <= value M * value r <= bpow radix2 740).
  { split; [apply Rmult_le_pos; lra |]. apply Rle_trans with (bpow radix2 431 * bpow radix2 302); [| rewrite <- bpow_plus; apply bpow_le; lia].
    apply Rmult_le_compat; [lra | lra | | lra]. change 431%Z with (430 + 1)%Z. rewrite <- big_double. lra. }
  destruct (mul_value 53 1024 p53 e1024 M r Vk Vr Fk Fr) as [F2 E2]; [apply (small_top 740); [lia |]; rewrite Rabs_pos_eq; lra |].
  pose proof (valid_mul 53 1024 p53 e1024 M r Vk Vr) as V2.
  change (nmul F64 M r) with (SFmul 53 1024 M r). set (zz := SFmul 53 1024 M r) in *. change (real zz) with (value zz).
  assert (Pz : 0 <= value zz) by (rewrite E2; apply rnd_nonneg; lra).
  split; [exact V2 |]. split; [apply finite_same; exact F2 |]. split; [exact Pz |].
  pose proof (rnd_err (value M * value r)) as RZ. rewrite <- E2 in RZ. rewrite (Rabs_pos_eq (value M * value r)) in RZ by lra.
  pose proof (product_square _ _ m (proj1 XB) Pz (proj1 Bm) RZ) as PS. apply Rabs_le_inv in PS.
  (* M^2 against m^2 *)
  assert (MM : - (16500 * e * (m * m)) <= value M * value M - m * m <= 16500 * e * (m * m)).
  { assert (P : forall u, - (8192 * e) <= u <= 8192 * e -> - (16500 * e) <= (1 + u) * (1 + u) - 1 <= 16500 * e).
    { intros u Hu. replace ((1 + u) * (1 + u) - 1) with (2 * u + u * u) by ring.
      assert (0 <= u * u <= 100 * e); [| lra]. split; [apply Rle_0_sqr |]. rewrite <- (Rabs_pos_eq (u * u)) by apply Rle_0_sqr. rewrite Rabs_mult.
      assert (Rabs u <= 8192 * e) by (apply Rabs_le; lra). pose proof (Rabs_pos u).
      apply Rle_trans with (8192 * e * (8192 * e)); [apply Rmult_le_compat; lra |].
      replace (8192 * e * (8192 * e)) with (67108864 * e * e) by ring. apply Rmult_le_compat_r; lra. }
    assert (D : value M / m - 1 = (value M - m) / m) by (field; lra).
    assert (U : - (8192 * e) <= value M / m - 1 <= 8192 * e).
    { rewrite D. split; apply Rmult_le_reg_r with m; try lra; unfold Rdiv; rewrite (Rmult_assoc (value M - m)), Rinv_l, Rmult_1_r by lra; lra. }
    specialize (P _ U). replace ((1 + (value M / m - 1)) * (1 + (value M / m - 1)) - 1) with ((value M * value M - m * m) / (m * m)) in P by (field; lra).
    assert (G : (value M * value M - m * m) / (m * m) * (m * m) = value M * value M - m * m) by (field; lra).
    split; rewrite <- G; [replace (- (16500 * e * (m * m))) with (- (16500 * e) * (m * m)) by ring |]; apply Rmult_le_compat_r; lra. }
  set (MM2 := value M * value M) in *. set (rr := value r * value r) in *. set (u := s * s / (m * m)) in *.
  assert (Eu : s * s = u * (m * m)) by (unfold u; field; lra).
  assert (XX : value M * value r * (value M * value r) = MM2 * rr) by (unfold MM2, rr; ring).
  rewrite XX in PS. set (b := m * m) in *.
  assert (Prr : 0 <= rr) by (apply Rmult_le_pos; lra).
  assert (EA1 : A1 = 1 + u) by reflexivity.
  assert (eb : 0 <= e * b) by (apply Rmult_le_pos; lra). assert (eub : 0 <= e * u * b) by (apply Rmult_le_pos; [apply Rmult_le_pos; lra | lra]).
  assert (Trr : rr <= 2 * A1) by (assert (e * A1 <= 1 / 1000000 * A1) by (apply Rmult_le_compat_r; lra); rewrite EA1 in *; lra).
  (* MM2 rr against b u *)
  assert (K1 : (MM2 - b) * rr <= 16500 * e * b * (2 * A1)).
  { apply Rle_trans with (16500 * e * b * rr); [apply Rmult_le_compat_r; lra | apply Rmult_le_compat_l; lra]. }
  assert (K2 : - (16500 * e * b * (2 * A1)) <= (MM2 - b) * rr).
  { apply Rle_trans with (- (16500 * e * b * rr)).
    - apply Ropp_le_contravar. apply Rmult_le_compat_l; lra.
    - replace (- (16500 * e * b * rr)) with (- (16500 * e * b) * rr) by ring. apply Rmult_le_compat_r; lra. }
  assert (K3 : b * (rr - u) <= b * (33812 * (e * A1))) by (apply Rmult_le_compat_l; lra).
  assert (K4 : b * - (33812 * (e * A1)) <= b * (rr - u)) by (apply Rmult_le_compat_l; lra).
  assert (TOT : - (66812 * (e * b * A1)) <= MM2 * rr - b * u <= 66812 * (e * b * A1)).
  { replace (MM2 * rr - b * u) with ((MM2 - b) * rr + b * (rr - u)) by ring. lra. }
  assert (EB : e * b * A1 = e * b + e * u * b) by (rewrite EA1; ring).
  assert (C : e * (MM2 * rr) <= e * (b * u + 66812 * (e * b * A1))) by (apply Rmult_le_compat_l; lra).
  assert (C2 : e * (e * b * A1) <= 1 / 1000000 * (e * b * A1)) by (apply Rmult_le_compat_r; lra).
  rewrite Eu. replace (262144 * e * (b + u * b)) with (262144 * (e * b + e * u * b)) by ring. apply Rabs_le. lra.
Qed.

(** A deviation next to nothing beside the mean is lost. *)
Lemma small_lost log ex x : accurate log -> exponential ex -> between (bpow radix2 (-60)) (bpow radix2 430) (c_mean x) ->
  between 0 (bpow radix2 420) (c_sd x) -> real (c_sd x) <= bpow radix2 (-27) * real (c_mean x) ->
  real (snd (made log x)) = 0 /\ real (sd_of ex (made log x)) = 0.
Proof.
  intros A X BM BS Q. pose proof (made_back log ex x A X BM BS) as (Vk & Fk & _).
  destruct (made_values log x (proj1 A) BM BS) as [Fi St].
  destruct St as (a & mm & ss & q & sg & gg & h & E1 & E2 & E3 & Va & Fa & La & Ea & Pq & Es & Eg & Eh & Emu & Esi & Esr).
  destruct BM as (Vm & Fm & Bm). destruct BS as (Vs & Fs & Bs).
  change (real (c_mean x)) with (value (c_mean x)) in *. change (real (c_sd x)) with (value (c_sd x)) in *.
  set (m := value (c_mean x)) in *. set (s := value (c_sd x)) in *.
  pose proof e_pos. pose proof e_small. pose proof tau_e. pose proof tau_pos. pose proof (bpow_gt_0 radix2 (-60)) as P60.
  assert (PM2 : bpow radix2 (-120) <= m * m) by (change (-120)%Z with (-60 + -60)%Z; rewrite bpow_plus; apply Rmult_le_compat; lra).
  pose proof (bpow_gt_0 radix2 (-120)).
  assert (PS2 : 0 <= s * s <= e / 4 * (m * m)).
  { split; [apply Rmult_le_pos; lra |]. replace (e / 4) with (bpow radix2 (-27) * bpow radix2 (-27)).
    - replace (bpow radix2 (-27) * bpow radix2 (-27) * (m * m)) with ((bpow radix2 (-27) * m) * (bpow radix2 (-27) * m)) by ring. apply Rmult_le_compat; lra.
    - rewrite <- bpow_plus. change (-27 + -27)%Z with (-54)%Z. change (-52)%Z with (2 + -54)%Z. rewrite (bpow_plus radix2 2 (-54)).
      change (bpow radix2 2) with 4. field. }
  assert (tM : tau <= e * e * (m * m)).
  { apply Rle_trans with (e * e * bpow radix2 (-120)); [rewrite <- !bpow_plus; apply bpow_le; lia |].
    apply Rmult_le_compat_l; [apply Rmult_le_pos; lra | exact PM2]. }
  set (b := m * m) in *. assert (eb : 0 <= e * b) by (apply Rmult_le_pos; lra).
  assert (eeb : e * e * b <= 1 / 1000000 * (e * b)) by (replace (e * e * b) with (e * (e * b)) by ring; apply Rmult_le_compat_r; lra).
  assert (eb1 : e * b <= 1 / 1000000 * b) by (apply Rmult_le_compat_r; lra).
  pose proof (rnd_err b) as R1. rewrite <- E1 in R1. rewrite (Rabs_pos_eq b) in R1 by lra. apply Rabs_le_inv in R1.
  pose proof (rnd_err (s * s)) as R2. rewrite <- E2 in R2. rewrite (Rabs_pos_eq (s * s)) in R2 by lra. apply Rabs_le_inv in R2.
  assert (es : e * (s * s) <= e * (e / 4 * b)) by (apply Rmult_le_compat_l; lra).
  assert (Pmm : 0 < mm) by lra.
  assert (Bss : 0 <= ss <= 3 / 10 * e * b).
  { split; [rewrite E2; apply rnd_nonneg; lra |]. lra. }
  assert (Bq : ss / mm <= 4 / 10 * e).
  { apply Rmult_le_reg_r with mm; [exact Pmm |]. unfold Rdiv. rewrite Rmult_assoc, Rinv_l, Rmult_1_r by lra.
    apply Rle_trans with (4 / 10 * e * (b - e * b)); [| apply Rmult_le_compat_l; lra].
    assert (e * (e * b) <= 1 / 1000000 * (e * b)) by (apply Rmult_le_compat_r; lra). lra. }
  assert (Q0 : 0 <= ss / mm) by (apply Rmult_le_pos; [lra | apply Rlt_le, Rinv_0_lt_compat; lra]).
  pose proof (rnd_err (ss / mm)) as R3. rewrite <- E3 in R3. rewrite (Rabs_pos_eq (ss / mm)) in R3 by lra. apply Rabs_le_inv in R3.
  assert (e * (ss / mm) <= 1 / 1000000 * (ss / mm)) by (apply Rmult_le_compat_r; lra).
  assert (Q1 : 0 <= q <= 45 / 100 * e) by lra.
  assert (One : rnd 53 1024 (1 + q) = 1).
  { apply Rle_antisym; [| rewrite <- Ea; exact La].
    assert (G1 : generic_format radix2 (SpecFloat.fexp 53 1024) 1) by (change 1 with (bpow radix2 0); apply generic_format_bpow; cbv; discriminate).
    assert (S : succ radix2 (SpecFloat.fexp 53 1024) 1 = 1 + e).
    { change 1 with (bpow radix2 0) at 1. rewrite succ_eq_pos by apply bpow_ge_0. rewrite ulp_bpow. reflexivity. }
    apply (round_N_le_midp radix2 (SpecFloat.fexp 53 1024) (fun n => negb (Z.even n)) 1 (1 + q) G1). rewrite S. lra. }
  assert (La1 : value a = 1) by (rewrite Ea; exact One).
  destruct (proj1 A a Va Fa) as (Vl & Fl & _ & _); [change (real a) with (value a); lra |].
  pose proof (proj2 A a Va Fa ltac:(change (real a) with (value a); lra)) as Al. change (real a) with (value a) in Al. rewrite La1, ln_1, Rabs_R0, Rmult_0_r in Al.
  change (real (log a)) with (value (log a)) in Al. rewrite Rminus_0_r in Al. pose proof (Rabs_pos (value (log a))).
  assert (L0 : value (log a) = 0) by (destruct (Req_dec (value (log a)) 0) as [|N]; [assumption | apply Rabs_no_R0 in N; lra]).
  rewrite L0, sqrt_0, rnd_0 in Es. subst sg. split; [exact Esi |].
  unfold sd_of. destruct (made log x) as [mu sigma] eqn:Ed. cbn [fst snd] in *.
  replace (neqb F64 mu (S754_infinity true)) with false.
  2: { destruct Fi as ((_ & Fmu) & _). cbn in Fmu. apply finite_same in Fmu. destruct mu as [|[]| |[] ? ?]; try discriminate; reflexivity. }
  destruct Fi as (_ & Vsi & Fsi & _). cbn [snd] in Vsi, Fsi.
  assert (BV : between 0 32 sigma) by (split; [exact Vsi |]; split; [exact Fsi | lra]).
  destruct (half_square sigma BV) as (Vg & Fg & _ & _ & Eg' & _). change (real sigma) with (value sigma) in Esi. rewrite Esi, Rmult_0_l, rnd_0 in Eg'.
  set (g := nmul F64 sigma sigma) in *.
  destruct (X g Vg) as (Vx & Fx & _ & _ & Ox); [apply finite_same; exact Fg | change (real g) with (value g); rewrite Eg', Rabs_R0; lra |].
  specialize (Ox Eg'). change (real (ex g)) with (value (ex g)) in Ox. apply finite_same in Fx. destruct one_value as (Vo & Fo & Eo).
  destruct (sub_value 53 1024 p53 e1024 (ex g) (nofZ F64 1) Vx Vo Fx Fo) as [F1 EW].
  { rewrite Eo, Ox. apply small_ok'. lra. }
  pose proof (valid_sub 53 1024 p53 e1024 (ex g) (nofZ F64 1) Vx Vo) as V1. rewrite Eo, Ox, Rminus_diag_eq, rnd_0 in EW by reflexivity.
  change (nsub F64 (ex g) (nofZ F64 1)) with (SFsub 53 1024 (ex g) (nofZ F64 1)). set (w := SFsub 53 1024 (ex g) (nofZ F64 1)) in *.
  destruct (root_value w V1 F1 ltac:(lra)) as [Fr Er]. pose proof (root_valid w V1) as Vr. rewrite EW, sqrt_0, rnd_0 in Er. apply finite_same in Fk.
  destruct (mul_value 53 1024 p53 e1024 _ _ Vk Vr Fk Fr) as [_ E5]; [rewrite Er, Rmult_0_r, rnd_0, Rabs_R0; apply bpow_gt_0 |].
  rewrite Er, Rmult_0_r, rnd_0 in E5. exact E5.
Qed.
