(** * Rounding errors in the combination of costs (C94) *)
From Coq Require Import ZArith Reals List Lra Lia Floats.SpecFloat.
From Flocq Require Import Core Relative BinarySingleNaN.
From Verif Require Import Num Double_spec Double_proofs Double_proofs2 Totals Totals_spec.
Import ListNotations.
Local Open Scope R_scope.
Local Instance p53i : Prec_gt_0 53 := eq_refl.
Local Instance e1024i : Prec_lt_emax 53 1024 := eq_refl.

(** ** Square roots *)

Lemma sqrt_same : forall x : binary_float 53 1024, SFsqrt 53 1024 (B2SF x) = B2SF (Bsqrt mode_NE x).
Proof.
  intros [sx|[]| |[] mx ex Bx]; try reflexivity. cbn. rewrite B2SF_SF2B.
  destruct (SFsqrt_core_binary 53 1024 (Z.pos mx) ex) as [[mz ez] lz]. apply round_aux.
Qed.

Lemma root_valid x : double x -> double (root x).
Proof. intros V. destruct (B_value x V) as [b ->]. unfold root. change f64_prec with 53%Z. change f64_emax with 1024%Z. rewrite sqrt_same. apply valid_B. Qed.

Lemma root_value x : double x -> finite_ x -> 0 <= value x ->
  finite_ (root x) /\ value (root x) = rnd 53 1024 (sqrt (value x)).
Proof.
  intros V F P. destruct (B_value x V) as [b ->]. unfold root. change f64_prec with 53%Z. change f64_emax with 1024%Z.
  rewrite sqrt_same. rewrite value_B in *. destruct (Bsqrt_correct 53 1024 _ _ mode_NE b) as (E & G & _).
  split; [| rewrite value_B; exact E]. apply finite_B. rewrite G. apply finite_B in F.
  destruct b as [s|s| |s m e H]; try reflexivity; try discriminate.
  destruct s; [| reflexivity]. exfalso. cbn in P. 
  assert (F2R (Float radix2 (Z.neg m) e) < 0) by (apply F2R_lt_0; reflexivity). cbn in *. lra.
Qed.

(** ** Rounding *)

Notation e := (bpow radix2 (-52)).
Notation tau := (bpow radix2 (-1074)).

Lemma e_half : bpow radix2 (-53) = e / 2.
Proof. change (-53)%Z with (-52 + -1)%Z. rewrite bpow_plus. change (bpow radix2 (-1)) with (/ 2). reflexivity. Qed.
Lemma tau_half : bpow radix2 (-1075) = tau / 2.
Proof. change (-1075)%Z with (-1074 + -1)%Z. rewrite bpow_plus. change (bpow radix2 (-1)) with (/ 2). reflexivity. Qed.
Lemma e_pos : 0 < e. Proof. apply bpow_gt_0. Qed.
Lemma tau_pos : 0 < tau. Proof. apply bpow_gt_0. Qed.

Lemma rnd_err r : Rabs (rnd 53 1024 r - r) <= e / 2 * Rabs r + tau / 2.
Proof.
  pose proof e_pos. pose proof tau_pos. pose proof (Rabs_pos r).
  destruct (Rle_or_lt (bpow radix2 (-1022)) (Rabs r)) as [B|B].
  - pose proof (relative_error_N_FLT radix2 (-1074) 53 ltac:(reflexivity) (fun n => negb (Z.even n)) r B) as E.
    change (round radix2 (FLT_exp (-1074) 53) ZnearestE r) with (rnd 53 1024 r) in E.
    change (- (53) + 1)%Z with (-52)%Z in E. lra.
  - pose proof (error_le_half_ulp radix2 (FLT_exp (-1074) 53) (fun n => negb (Z.even n)) r) as E.
    rewrite (ulp_FLT_small radix2 (-1074) 53 r) in E.
    + change (round radix2 (FLT_exp (-1074) 53) ZnearestE r) with (rnd 53 1024 r) in E.
      assert (0 <= e / 2 * Rabs r) by (apply Rmult_le_pos; lra). lra.
    + eapply Rlt_le_trans; [exact B |]. apply bpow_le. lia.
Qed.

(** [x] is [X] but for [k] roundings, and [t] of results next to nothing. *)
Definition near (k t : R) (x : F64) (X : R) : Prop :=
  double x /\ finite_ x /\ 0 <= value x /\ 0 <= X /\ Rabs (value x - X) <= k * e * X + t * tau.

Lemma near_round k t v X : 0 <= k -> 0 <= t -> k * e <= 1 / 16 -> t * e <= 1 / 16 -> 0 <= v -> 0 <= X ->
  Rabs (v - X) <= k * e * X + t * tau -> Rabs (rnd 53 1024 v - X) <= (k + 1) * e * X + (t + 1) * tau.
Proof.
  intros Hk Ht Bk Bt Hv HX E. pose proof (rnd_err v) as R. rewrite (Rabs_pos_eq v Hv) in R.
  pose proof e_pos. pose proof tau_pos. apply Rabs_le_inv in E.
  assert (A : e / 2 * v <= e * X + t * e * tau).
  { assert (e / 2 * v <= e / 2 * (X + (k * e) * X + t * tau)) by (apply Rmult_le_compat_l; lra).
    assert (k * e * X <= 1 / 16 * X) by (apply Rmult_le_compat_r; lra).
    assert (e / 2 * (k * e * X) <= e / 2 * (1 / 16 * X)) by (apply Rmult_le_compat_l; lra).
    assert (0 <= e * X) by (apply Rmult_le_pos; lra).
    assert (0 <= t * e * tau) by (repeat apply Rmult_le_pos; lra). nra. }
  assert (t * e * tau <= 1 / 16 * tau) by (apply Rmult_le_compat_r; lra).
  assert (D : Rabs (rnd 53 1024 v - X) <= Rabs (rnd 53 1024 v - v) + Rabs (v - X)).
  { replace (rnd 53 1024 v - X) with ((rnd 53 1024 v - v) + (v - X)) by ring. apply Rabs_triang. }
  assert (Rabs (v - X) <= k * e * X + t * tau) by (apply Rabs_le; lra).
  lra.
Qed.

Lemma rnd_nonneg v : 0 <= v -> 0 <= rnd 53 1024 v.
Proof. intros H. rewrite <- (rnd_0 53 1024). apply rnd_le; [exact p53 | exact H]. Qed.

Lemma near_weaken k t k' t' x X : k <= k' -> t <= t' -> near k t x X -> near k' t' x X.
Proof.
  intros Hk Ht (V & F & P & PX & E). repeat (split; [assumption |]). pose proof e_pos. pose proof tau_pos.
  assert (k * e * X <= k' * e * X) by (apply Rmult_le_compat_r; [lra | apply Rmult_le_compat_r; lra]).
  assert (t * tau <= t' * tau) by (apply Rmult_le_compat_r; lra). lra.
Qed.

Lemma tau_small : tau <= 1. Proof. change 1 with (bpow radix2 0). apply bpow_le. lia. Qed.

Lemma e_small : e <= 1 / 1000000.
Proof.
  apply Rle_trans with (bpow radix2 (-20)); [apply bpow_le; lia |].
  change (bpow radix2 (-20)) with (/ IZR (Z.pow_pos 2 20)). 
  replace (IZR (Z.pow_pos 2 20)) with 1048576 by (apply f_equal; reflexivity). lra.
Qed.

Lemma one_big k : (0 <= k)%Z -> 1 <= bpow radix2 k.
Proof. intros H. change 1 with (bpow radix2 0). apply bpow_le. exact H. Qed.

Lemma near_le k t x X : 0 <= k -> 0 <= t -> k * e <= 1 / 16 -> t * e <= 1 / 16 -> near k t x X -> value x <= 2 * X + e.
Proof.
  intros Hk Ht Bk Bt (V & F & P & PX & E). apply Rabs_le_inv in E. pose proof e_pos. pose proof tau_pos.
  assert (k * e * X <= 1 / 16 * X) by (apply Rmult_le_compat_r; lra).
  assert (t * tau <= e).
  { assert (X1 : tau <= e * e) by (rewrite <- bpow_plus; apply bpow_le; lia).
    assert (t * tau <= t * (e * e)) by (apply Rmult_le_compat_l; lra).
    assert (t * e * e <= 1 / 16 * e) by (apply Rmult_le_compat_r; lra). lra. }
  lra.
Qed.

Lemma big_double n : 2 * bpow radix2 n = bpow radix2 (n + 1).
Proof. rewrite bpow_plus. change (bpow radix2 1) with 2. ring. Qed.

Lemma near_add k t k' t' x y X Y : 0 <= k -> 0 <= t -> 0 <= t' -> k' <= k -> k * e <= 1 / 16 -> (t + t') * e <= 1 / 16 ->
  X <= bpow radix2 900 -> Y <= bpow radix2 900 -> near k t x X -> near k' t' y Y ->
  near (k + 1) (t + t' + 1) (nadd F64 x y) (X + Y).
Proof.
  intros Hk Ht Ht' Hkk Bk Bt BX BY Nx Ny. pose proof e_pos. pose proof e_small.
  apply (near_weaken k' t' k t') in Ny; [| exact Hkk | lra].
  assert (t * e <= 1 / 16) by nra. assert (t' * e <= 1 / 16) by nra.
  pose proof (near_le k t x X Hk Ht Bk ltac:(lra) Nx) as Lx. pose proof (near_le k t' y Y Hk Ht' Bk ltac:(lra) Ny) as Ly.
  destruct Nx as (Vx & Fx & Px & PX & Ex). destruct Ny as (Vy & Fy & Py & PY & Ey).
  assert (B : Rabs (value x + value y) <= bpow radix2 1000).
  { rewrite Rabs_pos_eq by lra. pose proof (one_big 900 ltac:(lia)).
    apply Rle_trans with (2 * (2 * (2 * bpow radix2 900))); [lra |]. rewrite !big_double. apply bpow_le. lia. }
  destruct (add_value 53 1024 p53 e1024 x y Vx Vy Fx Fy (small_ok _ B)) as [F E].
  split; [apply (valid_add 53 1024 p53 e1024); assumption |]. split; [exact F |].
  change (value (nadd F64 x y)) with (value (SFadd 53 1024 x y)). rewrite E.
  split; [apply rnd_nonneg; lra |]. split; [lra |].
  apply near_round; try assumption; try lra.
  replace (value x + value y - (X + Y)) with ((value x - X) + (value y - Y)) by ring.
  eapply Rle_trans; [apply Rabs_triang |]. lra.
Qed.

Lemma near_scale k t x w X : 0 <= k -> 0 <= t -> k * e <= 1 / 16 -> t * e <= 1 / 16 -> X <= bpow radix2 900 ->
  near k t x X -> chance w -> near (k + 1) (t + 1) (nmul F64 x w) (real w * X).
Proof.
  intros Hk Ht Bk Bt BX Nx (Vw & Fw & Pw). change (real w) with (value w) in *.
  assert (Fw' : finite_ w) by (destruct w; easy). pose proof e_pos. pose proof e_small.
  pose proof (near_le k t x X Hk Ht Bk Bt Nx) as Lx. destruct Nx as (Vx & Fx & Px & PX & Ex).
  assert (M : 0 <= value x * value w <= value x).
  { split; [apply Rmult_le_pos; lra |]. rewrite <- (Rmult_1_r (value x)) at 2. apply Rmult_le_compat_l; lra. }
  assert (B : Rabs (value x * value w) <= bpow radix2 1000).
  { rewrite Rabs_pos_eq by lra. pose proof (one_big 900 ltac:(lia)).
    apply Rle_trans with (2 * (2 * bpow radix2 900)); [lra |]. rewrite !big_double. apply bpow_le. lia. }
  destruct (mul_value 53 1024 p53 e1024 x w Vx Vw Fx Fw' (small_ok _ B)) as [F E].
  split; [apply (valid_mul 53 1024 p53 e1024); assumption |]. split; [exact F |].
  change (value (nmul F64 x w)) with (value (SFmul 53 1024 x w)). rewrite E.
  split; [apply rnd_nonneg; lra |]. split; [apply Rmult_le_pos; lra |].
  apply near_round; try assumption; try lra; [apply Rmult_le_pos; lra |].
  replace (value x * value w - value w * X) with (value w * (value x - X)) by ring.
  rewrite Rabs_mult, (Rabs_pos_eq (value w)) by lra.
  pose proof tau_pos. assert (0 <= t * tau) by (apply Rmult_le_pos; lra).
  apply Rle_trans with (value w * (k * e * X + t * tau)); [apply Rmult_le_compat_l; lra |].
  assert (value w * (t * tau) <= 1 * (t * tau)) by (apply Rmult_le_compat_r; lra). lra.
Qed.

Lemma near_exact x : double x -> finite x -> 0 <= real x -> near 0 0 x (real x).
Proof.
  intros V F P. split; [exact V |]. split; [destruct x; easy |]. split; [exact P |]. split; [exact P |].
  change (value x) with (real x). rewrite Rminus_diag_eq by reflexivity. rewrite Rabs_R0. lra.
Qed.

Lemma near_square x : amount x -> near 1 1 (nmul F64 x x) (real x * real x) /\ real x * real x <= bpow radix2 800.
Proof.
  intros (V & F & P). change (real x) with (value x) in *. assert (F' : finite_ x) by (destruct x; easy).
  assert (B0 : value x * value x <= bpow radix2 800).
  { replace (bpow radix2 800) with (bpow radix2 400 * bpow radix2 400) by (rewrite <- bpow_plus; reflexivity).
    apply Rmult_le_compat; lra. }
  assert (P0 : 0 <= value x * value x) by (apply Rmult_le_pos; lra).
  split; [| exact B0].
  assert (B : Rabs (value x * value x) <= bpow radix2 1000).
  { rewrite Rabs_pos_eq by lra. eapply Rle_trans; [exact B0 |]. apply bpow_le. lia. }
  destruct (mul_value 53 1024 p53 e1024 x x V V F' F' (small_ok _ B)) as [G E].
  split; [apply (valid_mul 53 1024 p53 e1024); assumption |]. split; [exact G |].
  change (value (nmul F64 x x)) with (value (SFmul 53 1024 x x)). rewrite E.
  split; [apply rnd_nonneg; lra |]. split; [exact P0 |].
  replace 1 with (0 + 1) by ring. apply near_round; try lra. rewrite Rminus_diag_eq by reflexivity. rewrite Rabs_R0. lra.
Qed.

(** ** Variances *)

Lemma small_e k : 0 <= k <= 100 -> k * e <= 1 / 16.
Proof. intros H. pose proof e_small. pose proof e_pos. assert (k * e <= 100 * (1 / 1000000)) by (apply Rmult_le_compat; lra). lra. Qed.

Lemma near_moment x : known x ->
  near 2 3 (square x) (real (c_mean x) * real (c_mean x) + real (c_sd x) * real (c_sd x)) /\
  real (c_mean x) * real (c_mean x) + real (c_sd x) * real (c_sd x) <= bpow radix2 801.
Proof.
  intros [M S]. destruct (near_square _ M) as [Nm Bm]. destruct (near_square _ S) as [Ns Bs]. split.
  - replace 2 with (1 + 1) by ring. replace 3 with (1 + 1 + 1) by ring.
    apply near_add with (k' := 1); try assumption; try lra; try (apply small_e; lra).
    + eapply Rle_trans; [exact Bm | apply bpow_le; lia].
    + eapply Rle_trans; [exact Bs | apply bpow_le; lia].
  - change 801%Z with (800 + 1)%Z. rewrite <- big_double. lra.
Qed.

Lemma near_finite k t x X : near k t x X -> finite x.
Proof. intros (_ & F & _). destruct x; easy. Qed.

(** A difference of squares. *)
Lemma variance_value k t k' t' q m Q M : 0 <= k -> 0 <= t -> 0 <= k' -> 0 <= t' ->
  k * e <= 1 / 16 -> t * e <= 1 / 16 -> k' * e <= 1 / 16 -> t' * e <= 1 / 16 ->
  Q <= bpow radix2 900 -> M <= bpow radix2 430 -> near k t q Q -> near k' t' m M ->
  let v := nsub F64 q (nmul F64 m m) in
  double v /\ finite_ v /\ Rabs (value v - (Q - M * M)) <= (k + 1) * e * Q + (3 * k' + 2) * e * (M * M) + bpow radix2 (-580).
Proof.
  intros Hk Ht Hk' Ht' Bk Bt Bk' Bt' BQ BM Nq Nm v. pose proof e_pos as Pe. pose proof e_small as Se. pose proof tau_pos as Pt.
  pose proof (near_le k t q Q Hk Ht Bk Bt Nq) as Lq. pose proof (near_le k' t' m M Hk' Ht' Bk' Bt' Nm) as Lm.
  destruct Nq as (Vq & Fq & Pq & PQ & Eq). destruct Nm as (Vm & Fm & Pm & PM & Em).
  set (x := value m) in *. set (y := value q) in *.
  (* small things *)
  assert (tiny : forall a, 0 <= a -> a * e <= 1 / 16 -> a * tau <= bpow radix2 (-1020)).
  { intros a Ha Hb. replace tau with (e * bpow radix2 (-1022)) by (rewrite <- bpow_plus; reflexivity).
    rewrite <- Rmult_assoc. apply Rle_trans with (1 * bpow radix2 (-1022)).
    - apply Rmult_le_compat_r; [apply bpow_ge_0 | lra].
    - rewrite Rmult_1_l. apply bpow_le. lia. }
  set (h := bpow radix2 (-1020)) in *.
  assert (Ph : 0 < h) by apply bpow_gt_0.
  pose proof (tiny t Ht Bt) as Tt. pose proof (tiny t' Ht' Bt') as Tt'.
  assert (hM : h * M <= bpow radix2 (-590)).
  { change (-590)%Z with (-1020 + 430)%Z. rewrite bpow_plus. fold h; apply Rmult_le_compat_l; [left; exact Ph | exact BM]. }
  assert (hh : h <= bpow radix2 (-1020)) by (unfold h; lra).
  assert (h6 : h <= bpow radix2 (-590)) by (unfold h; apply bpow_le; lia).
  assert (h1 : h <= 1) by (change 1 with (bpow radix2 0); unfold h; apply bpow_le; lia).
  set (g := bpow radix2 (-590)) in *. assert (Pg : 0 < g) by apply bpow_gt_0.
  (* the square of the mean *)
  assert (A : Rabs (x * x - M * M) <= 3 * k' * e * (M * M) + 4 * g).
  { replace (x * x - M * M) with ((x - M) * (2 * M + (x - M))) by ring. rewrite Rabs_mult.
    assert (D : Rabs (x - M) <= k' * e * M + h) by lra.
    assert (D2 : Rabs (2 * M + (x - M)) <= 2 * M + (k' * e * M + h)).
    { eapply Rle_trans; [apply Rabs_triang |]. rewrite (Rabs_pos_eq (2 * M)) by lra. lra. }
    assert (0 <= k' * e) by (apply Rmult_le_pos; lra).
    assert (0 <= k' * e * M) by (apply Rmult_le_pos; lra).
    apply Rle_trans with ((k' * e * M + h) * (2 * M + (k' * e * M + h))).
    - apply Rmult_le_compat; try apply Rabs_pos; lra.
    - assert (K2 : (k' * e * M) * (k' * e * M) <= 1 / 16 * (k' * e * (M * M))).
      { replace ((k' * e * M) * (k' * e * M)) with ((k' * e) * (k' * e * (M * M))) by ring.
        apply Rmult_le_compat_r; [| lra]. apply Rmult_le_pos; [lra | apply Rmult_le_pos; lra]. }
      assert (hk : k' * e * M * h <= 1 / 16 * g).
      { apply Rle_trans with (1 / 16 * (h * M)); [| lra].
        replace (k' * e * M * h) with ((k' * e) * (h * M)) by ring. apply Rmult_le_compat_r; [apply Rmult_le_pos; lra | lra]. }
      assert (h * h <= g) by (apply Rle_trans with (1 * h); [apply Rmult_le_compat_r; lra | lra]).
      assert (0 <= k' * e * (M * M)) by (apply Rmult_le_pos; [lra | apply Rmult_le_pos; lra]).
      replace ((k' * e * M + h) * (2 * M + (k' * e * M + h)))
        with (2 * (k' * e * (M * M)) + k' * e * M * (k' * e * M) + 2 * (k' * e * M * h) + 2 * (h * M) + h * h) by ring.
      lra. }
  assert (MM : 0 <= M * M) by (apply Rmult_le_pos; lra).
  assert (xx : 0 <= x * x) by (apply Rmult_le_pos; lra).
  assert (BMM : M * M <= bpow radix2 860).
  { change 860%Z with (430 + 430)%Z. rewrite bpow_plus. apply Rmult_le_compat; lra. }
  assert (keM : 3 * k' * e * (M * M) <= 3 / 16 * (M * M)) by (apply Rmult_le_compat_r; [exact MM | lra]).
  assert (g1 : g <= 1) by (change 1 with (bpow radix2 0); unfold g; apply bpow_le; lia).
  pose proof (one_big 860 ltac:(lia)) as O804. pose proof (one_big 900 ltac:(lia)) as O900.
  assert (B804 : bpow radix2 860 <= bpow radix2 900) by (apply bpow_le; lia).
  assert (xM : x * x <= 2 * (M * M) + 4 * g) by (apply Rabs_le_inv in A; lra).
  assert (B : Rabs (x * x) <= bpow radix2 1000).
  { rewrite Rabs_pos_eq by lra. apply Rle_trans with (2 * (2 * (2 * bpow radix2 900))); [lra |].
    rewrite !big_double. apply bpow_le. lia. }
  destruct (mul_value 53 1024 p53 e1024 m m Vm Vm Fm Fm (small_ok _ B)) as [Fs Es].
  pose proof (valid_mul 53 1024 p53 e1024 m m Vm Vm) as Vs.
  fold x in Es. change (SFmul 53 1024 m m) with (nmul F64 m m) in *. set (s := value (nmul F64 m m)) in *.
  pose proof (rnd_err (x * x)) as R1. rewrite <- Es, (Rabs_pos_eq (x * x) xx) in R1.
  assert (Ps : 0 <= s) by (rewrite Es; apply rnd_nonneg; exact xx).
  assert (tg : tau <= g) by (unfold g; apply bpow_le; lia).
  assert (eg : e * g <= 1 / 1000000 * g) by (apply Rmult_le_compat_r; lra).
  assert (exx : e / 2 * (x * x) <= e * (M * M) + 2 * (e * g)).
  { apply Rle_trans with (e / 2 * (2 * (M * M) + 4 * g)); [apply Rmult_le_compat_l; lra |].
    assert (0 <= e * g) by (apply Rmult_le_pos; lra). lra. }
  assert (S1 : Rabs (s - M * M) <= (3 * k' + 1) * e * (M * M) + 6 * g).
  { replace (s - M * M) with ((s - x * x) + (x * x - M * M)) by ring. eapply Rle_trans; [apply Rabs_triang |]. lra. }
  (* the difference *)
  assert (sB : s <= 3 * (M * M) + 6 * g).
  { apply Rabs_le_inv in S1. assert (e * (M * M) <= 1 / 1000000 * (M * M)) by (apply Rmult_le_compat_r; lra). lra. }
  assert (B2 : Rabs (y - s) <= bpow radix2 1000).
  { apply Rle_trans with (2 * (2 * (2 * (2 * bpow radix2 900)))).
    - apply Rabs_le. lra.
    - rewrite !big_double. apply bpow_le. lia. }
  destruct (sub_value 53 1024 p53 e1024 q (nmul F64 m m) Vq Vs Fq Fs (small_ok _ B2)) as [Fv Ev].
  fold y s in Ev. change (SFsub 53 1024 q (nmul F64 m m)) with v in *.
  split; [apply (valid_sub 53 1024 p53 e1024); assumption |]. split; [exact Fv |].
  pose proof (rnd_err (y - s)) as R2. rewrite <- Ev in R2.
  assert (keQ : k * e * Q <= 1 / 16 * Q) by (apply Rmult_le_compat_r; lra).
  assert (yQ : y <= 17 / 16 * Q + h) by (apply Rabs_le_inv in Eq; lra).
  assert (sM : s <= 3 / 2 * (M * M) + 6 * g).
  { apply Rabs_le_inv in S1. assert (e * (M * M) <= 1 / 1000000 * (M * M)) by (apply Rmult_le_compat_r; lra). lra. }
  assert (ys : Rabs (y - s) <= 2 * Q + 2 * (M * M) + 7 * g).
  { apply Rabs_le. lra. }
  assert (eys : e / 2 * Rabs (y - s) <= e * Q + e * (M * M) + 5 * g).
  { apply Rle_trans with (e / 2 * (2 * Q + 2 * (M * M) + 7 * g)); [apply Rmult_le_compat_l; lra |]. lra. }
  assert (G : 16 * g <= bpow radix2 (-580)).
  { apply Rle_trans with (bpow radix2 4 * g); [change (bpow radix2 4) with 16; lra |].
    unfold g. rewrite <- bpow_plus. apply bpow_le. lia. }
  replace (value v - (Q - M * M)) with ((value v - (y - s)) + ((y - Q) - (s - M * M))) by ring.
  eapply Rle_trans; [apply Rabs_triang |].
  assert (T : Rabs ((y - Q) - (s - M * M)) <= Rabs (y - Q) + Rabs (s - M * M)).
  { unfold Rminus at 1. eapply Rle_trans; [apply Rabs_triang |]. rewrite Rabs_Ropp. lra. }
  lra.
Qed.

(** The root of what is not negative. *)
Lemma root_near v : double v -> finite_ v -> 0 <= value v ->
  double (root v) /\ finite_ (root v) /\ 0 <= value (root v) /\
  (value v <= bpow radix2 901 -> Rabs (value (root v) * value (root v) - value v) <= 2 * e * value v + bpow radix2 (-580)).
Proof.
  intros V F P. destruct (root_value v V F P) as [Fr Er]. pose proof (sqrt_pos (value v)) as Ps.
  split; [now apply root_valid |]. split; [exact Fr |]. split; [rewrite Er; apply rnd_nonneg; exact Ps |].
  intros B. set (r := sqrt (value v)) in *. pose proof (sqrt_sqrt (value v) P) as S. fold r in S.
  pose proof (rnd_err r) as R. rewrite (Rabs_pos_eq r Ps) in R. rewrite <- Er in R. set (z := value (root v)) in *.
  pose proof e_pos. pose proof e_small. pose proof tau_pos.
  assert (Br : r <= bpow radix2 451).
  { destruct (Rle_or_lt r (bpow radix2 451)) as [L|L]; [exact L |]. exfalso.
    assert (bpow radix2 902 < r * r).
    { change 902%Z with (451 + 451)%Z. rewrite bpow_plus. pose proof (bpow_gt_0 radix2 451). apply Rmult_le_0_lt_compat; lra. }
    assert (bpow radix2 901 <= bpow radix2 902) by (apply bpow_le; lia). lra. }
  set (g := bpow radix2 (-620)). assert (Pg : 0 < g) by apply bpow_gt_0.
  assert (tr : tau * r <= g).
  { apply Rle_trans with (tau * bpow radix2 451); [apply Rmult_le_compat_l; lra |]. rewrite <- bpow_plus. apply bpow_le. lia. }
  assert (tt : tau <= g) by (apply bpow_le; lia).
  pose proof tau_small.
  assert (tau * tau <= g) by (apply Rle_trans with (1 * tau); [apply Rmult_le_compat_r; lra | lra]).
  rewrite <- S. replace (z * z - r * r) with ((z - r) * (2 * r + (z - r))) by ring. rewrite Rabs_mult.
  assert (D2 : Rabs (2 * r + (z - r)) <= 2 * r + (e / 2 * r + tau / 2)).
  { eapply Rle_trans; [apply Rabs_triang |]. rewrite (Rabs_pos_eq (2 * r)) by lra. lra. }
  assert (0 <= e * r) by (apply Rmult_le_pos; lra).
  apply Rle_trans with ((e / 2 * r + tau / 2) * (2 * r + (e / 2 * r + tau / 2))).
  { apply Rmult_le_compat; try apply Rabs_pos; lra. }
  assert (0 <= e * (r * r)) by (apply Rmult_le_pos; [lra | apply Rmult_le_pos; lra]).
  assert (E2 : e * r * (e * r) <= 1 / 1000000 * (e * (r * r))).
  { replace (e * r * (e * r)) with (e * (e * (r * r))) by ring. apply Rmult_le_compat_r; lra. }
  assert (E3 : e * r * tau <= g).
  { replace (e * r * tau) with (e * (tau * r)) by ring. assert (0 <= tau * r) by (apply Rmult_le_pos; lra).
    apply Rle_trans with (1 * (tau * r)); [apply Rmult_le_compat_r; lra | lra]. }
  replace ((e / 2 * r + tau / 2) * (2 * r + (e / 2 * r + tau / 2)))
    with (e * (r * r) + 1 / 4 * (e * r * (e * r)) + 1 / 2 * (e * r * tau) + tau * r + 1 / 4 * (tau * tau)) by field.
  assert (G : 16 * g <= bpow radix2 (-580)).
  { apply Rle_trans with (bpow radix2 4 * g); [change (bpow radix2 4) with 16; lra |].
    unfold g. rewrite <- bpow_plus. apply bpow_le. lia. }
  lra.
Qed.
