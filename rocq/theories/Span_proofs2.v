(** * Logarithmic ranges in double precision (C105): proofs *)
From Coq Require Import ZArith Reals List Lra Lia Floats.SpecFloat.
From Flocq Require Import Core Relative BinarySingleNaN.
From Verif Require Probfn_proofs.
From Verif Require Import Num Double_spec Double_proofs Double_proofs2 Maq_double_proofs Deriv_proofs3 Totals Totals_spec
  Totals_proofs Totals_proofs2 Totals_proofs4 Totals_proofs6 Totals_proofs7 Spread Spread_spec Spread_proofs Spread_proofs2 Spread_proofs3 Spread_proofs4
  Tabled_proofs Tabled_proofs2 Hyperbola_spec Hyperbola_proofs Hyperbola_proofs2 Loglog_spec Loglog_proofs Loglog_proofs2 Loglog_proofs4 Ranges Span Span_spec Span_proofs.
Import ListNotations.
Local Open Scope R_scope.
Local Instance p53i : Prec_gt_0 53 := eq_refl.
Local Instance e1024i : Prec_lt_emax 53 1024 := eq_refl.

Lemma mul_near x y B : double x -> finite x -> double y -> finite y -> Rabs (real x * real y) <= B -> B <= bpow radix2 1000 ->
  near (nmul F64 x y) (real x * real y) (e / 2 * B + tau / 2).
Proof.
  intros Vx Fx Vy Fy L H. apply Totals_proofs2.finite_same in Fx, Fy.
  destruct (mul_value 53 1024 p53i e1024i x y Vx Vy Fx Fy) as [F E]; [apply small_ok; exact (Rle_trans _ _ _ L H) |].
  split; [now apply (valid_mul 53 1024 p53i e1024i) |]. split; [now apply Totals_proofs2.finite_same |].
  change (Rabs (value (SFmul 53 1024 x y) - (real x * real y)) <= e / 2 * B + tau / 2). rewrite E. now apply rd_near.
Qed.

Lemma ln_ordinary x : ordinary x -> 0 < real x /\ Rabs (ln (real x)) <= 360.
Proof.
  intros (V & F & B). pose proof (bpow_gt_0 radix2 (-400)). split; [lra |].
  assert (ln (bpow radix2 (-400)) <= ln (real x)) by (apply ln_le; lra). assert (ln (real x) <= ln (bpow radix2 400)) by (apply ln_le; lra).
  rewrite !ln_bpow in *. pose proof ln2_top. pose proof ln_lt_2. apply Rabs_le. lra.
Qed.

Lemma not_leb_zero x : double x -> finite x -> 0 < real x -> nleb F64 x (nofZ F64 0) = false.
Proof. intros V F P. apply leb_real_false; [exact V | reflexivity | exact F | exact I |]. change (real (nofZ F64 0)) with 0. exact P. Qed.

Lemma apart a b : 0 < a -> a * (1 + bpow radix2 (-20)) <= b -> bpow radix2 (-21) <= ln b - ln a.
Proof.
  intros Pa W. assert (T : 0 < bpow radix2 (-20)) by apply bpow_gt_0. assert (D : 2 * bpow radix2 (-21) = bpow radix2 (-20)) by (change 2 with (bpow radix2 1); rewrite <- bpow_plus; reflexivity).
  assert (T1 : bpow radix2 (-20) <= 1) by (change 1 with (bpow radix2 0); apply bpow_le; lia).
  assert (LW : ln (a * (1 + bpow radix2 (-20))) <= ln b) by (apply ln_le; [apply Rmult_lt_0_compat; lra | exact W]).
  rewrite ln_mult in LW by lra. pose proof (exp_ineq1_le (- ln (1 + bpow radix2 (-20)))) as I. rewrite exp_Ropp, exp_ln in I by lra.
  assert (J : / (1 + bpow radix2 (-20)) <= 1 - bpow radix2 (-21)).
  { apply Rmult_le_reg_r with (1 + bpow radix2 (-20)); [lra |]. rewrite Rinv_l by lra. rewrite <- D.
    set (u := bpow radix2 (-21)) in *. assert (0 <= u * (1 - 2 * u)) by (apply Rmult_le_pos; lra). lra. }
  lra.
Qed.

Section Log.
Variables (log ex : F64 -> F64) (start stop : F64) (count : Z).
Hypothesis LL : accurate log.
Hypothesis LE : exponential ex.
Hypothesis OA : ordinary start.
Hypothesis OB : ordinary stop.
Hypothesis CT : (2 <= count <= 65537)%Z.
Let n : R := IZR (count - 1).
Let A := ln (real start).
Let G := ln (real stop) - ln (real start).

Lemma thousand r : 0 <= r -> r <= 100000000 -> r <= bpow radix2 1000.
Proof. intros _ H. apply Rle_trans with (bpow radix2 30); [change (bpow radix2 30) with 1073741824; lra | apply bpow_le; lia]. Qed.

Lemma ratio_right : let r := ndiv F64 stop start in double r /\ finite r /\ 0 < real r /\ Rabs (ln (real r) - G) <= 2 * e.
Proof.
  intros r. destruct OA as (Va & Fa & Ba). destruct OB as (Vb & Fb & Bb). destruct (ln_ordinary start OA) as [Pa _]. destruct (ln_ordinary stop OB) as [Pb _].
  assert (Q0 : 0 < real stop / real start) by (apply Rdiv_lt_0_compat; lra).
  assert (Qb : real stop / real start <= bpow radix2 800).
  { apply Rmult_le_reg_r with (real start); [lra |]. replace (real stop / real start * real start) with (real stop) by (field; lra).
    apply Rle_trans with (bpow radix2 800 * bpow radix2 (-400)); [rewrite <- bpow_plus; apply (proj2 Bb) | apply Rmult_le_compat_l; [apply bpow_ge_0 | lra]]. }
  assert (Qa : bpow radix2 (-800) <= real stop / real start).
  { apply Rmult_le_reg_r with (real start); [lra |]. replace (real stop / real start * real start) with (real stop) by (field; lra).
    apply Rle_trans with (bpow radix2 (-800) * bpow radix2 400); [apply Rmult_le_compat_l; [apply bpow_ge_0 | lra] | rewrite <- bpow_plus; apply (proj1 Bb)]. }
  destruct (div_near stop start (real stop / real start) Vb Fb Va) as (V & F & E); [lra | rewrite Rabs_pos_eq; lra | apply Rle_trans with (1 := Qb); apply bpow_le; lia |].
  fold r in V, F, E. split; [exact V |]. split; [exact F |].
  assert (T : tau <= e * (real stop / real start)).
  { apply Rle_trans with (e * bpow radix2 (-800)); [rewrite <- bpow_plus; apply bpow_le; lia | apply Rmult_le_compat_l; [pose proof e_pos; lra | exact Qa]]. }
  pose proof e_pos. pose proof e_tiny. assert (E' : Rabs (real r - real stop / real start) <= e * (real stop / real start)) by lra.
  assert (e * (real stop / real start) <= / 1000000000 * (real stop / real start)) by (apply Rmult_le_compat_r; lra).
  pose proof (ln_near (real r) (real stop / real start) e Q0 ltac:(lra) E') as N. apply Rabs_le_inv in E'. split; [lra |].
  assert (EG : ln (real stop / real start) = G) by (unfold Rdiv; rewrite ln_mult, ln_Rinv by (try apply Rinv_0_lt_compat; lra); reflexivity). rewrite EG in N. lra.
Qed.

Lemma element_right k : (0 <= k <= count - 1)%Z ->
  near (element (log start) (log (ndiv F64 stop start)) count k) (A + IZR k / n * G) (5595 * e).
Proof.
  intros K. destruct LL as [L Acc]. destruct OA as (Va & Fa & Ba). destruct (ln_ordinary start OA) as [Pa LA]. destruct (ln_ordinary stop OB) as [Pb LB]. fold A in LA.
  destruct ratio_right as (Vr & Fr & Pr & Er). pose proof e_pos. pose proof e_tiny. pose proof tau_pos. pose proof tau_e.
  destruct (L start Va Fa Pa) as (Vla & Fla & _). pose proof (Acc start Va Fa Pa) as Ela. fold A in Ela. rewrite e50 in Ela.
  destruct (L _ Vr Fr Pr) as (Vlr & Flr & _). pose proof (Acc _ Vr Fr Pr) as Elr. rewrite e50 in Elr.
  set (lr := log (ndiv F64 stop start)) in *. set (la := log start) in *.
  assert (GB : Rabs G <= 720) by (unfold G; apply Rabs_le_inv in LA; apply Rabs_le_inv in LB; unfold A in LA; apply Rabs_le; lra).
  assert (Ela' : Rabs (real la - A) <= 1440 * e) by (apply Rle_trans with (1 := Ela); apply Rle_trans with (4 * e * 360); [apply Rmult_le_compat_l; lra | lra]).
  apply Rabs_le_inv in Er. apply Rabs_le_inv in GB.
  assert (Elr' : Rabs (real lr - ln (real (ndiv F64 stop start))) <= 2885 * e).
  { apply Rle_trans with (1 := Elr). apply Rle_trans with (4 * e * (2885 / 4)); [apply Rmult_le_compat_l; [lra | apply Rabs_le; lra] | lra]. }
  apply Rabs_le_inv in Elr'. assert (DG : Rabs (real lr - G) <= 2888 * e) by (apply Rabs_le; lra). 
  assert (LR : Rabs (real lr) <= 721) by (apply Rabs_le; lra).
  destruct (exact_int k ltac:(lia)) as (Vk & Fk & Ek). destruct (exact_int (count - 1) ltac:(lia)) as (Vn & Fn & En).
  change (value (nofZ F64 k)) with (real (nofZ F64 k)) in Ek. change (value (nofZ F64 (count - 1))) with (real (nofZ F64 (count - 1))) in En. fold n in En. apply Totals_proofs2.finite_same in Fk.
  assert (NB : 1 <= n <= 65536) by (unfold n; split; apply IZR_le; lia).
  assert (KB : 0 <= IZR k <= n) by (unfold n; split; apply IZR_le; lia).
  assert (Q01 : 0 <= IZR k / n <= 1).
  { split; [apply Rmult_le_pos; [lra | left; apply Rinv_0_lt_compat; lra] |]. apply Rmult_le_reg_r with n; [lra |]. replace (IZR k / n * n) with (IZR k) by (field; lra). lra. }
  destruct (mul_near (nofZ F64 k) lr (n * 721) Vk Fk Vlr Flr) as (Vp & Fp & Ep).
  { rewrite Ek, Rabs_mult, (Rabs_pos_eq (IZR k)) by lra. apply Rmult_le_compat; try lra. apply Rabs_pos. }
  { apply thousand; [lra | apply Rle_trans with (65536 * 721); [apply Rmult_le_compat_r; lra | lra]]. }
  rewrite Ek in Ep. set (p := nmul F64 (nofZ F64 k) lr) in *.
  assert (Pn : Rabs (real p / n - IZR k / n * real lr) <= 361 * e).
  { replace (real p / n - IZR k / n * real lr) with ((real p - IZR k * real lr) / n) by (field; lra). unfold Rdiv.
    rewrite Rabs_mult, (Rabs_pos_eq (/ n)) by (left; apply Rinv_0_lt_compat; lra).
    apply Rmult_le_reg_r with n; [lra |]. rewrite Rmult_assoc, Rinv_l, Rmult_1_r by lra. apply Rle_trans with (1 := Ep).
    assert (e * 1 <= e * n) by (apply Rmult_le_compat_l; lra). lra. }
  assert (KL : Rabs (IZR k / n * real lr) <= 721).
  { rewrite Rabs_mult, (Rabs_pos_eq (IZR k / n)) by lra. apply Rle_trans with (1 * 721); [apply Rmult_le_compat; try lra; apply Rabs_pos | lra]. }
  assert (KG : Rabs (IZR k / n * real lr - IZR k / n * G) <= 2888 * e).
  { rewrite <- Rmult_minus_distr_l, Rabs_mult, (Rabs_pos_eq (IZR k / n)) by lra.
    apply Rle_trans with (1 * (2888 * e)); [apply Rmult_le_compat; try lra; apply Rabs_pos | lra]. }
  apply Rabs_le_inv in Pn. apply Rabs_le_inv in KL. apply Rabs_le_inv in KG. apply Rabs_le_inv in Ela'. apply Rabs_le_inv in LA.
  destruct (div_near p (nofZ F64 (count - 1)) 722 Vp Fp Vn) as (Vt & Ft & Et); [rewrite En; lra | rewrite En; apply Rabs_le; lra | apply thousand; lra |].
  rewrite En in Et. apply Rabs_le_inv in Et.
  destruct (add_near la (ndiv F64 p (nofZ F64 (count - 1))) 1084 Vla Fla Vt Ft) as (Vs & Fs & Es); [apply Rabs_le; lra | apply thousand; lra |]. apply Rabs_le_inv in Es.
  split; [exact Vs |]. split; [exact Fs |]. unfold element. fold p. apply Rabs_le. lra.
Qed.

Lemma ideal_exp i : ideal_log start stop count i = exp (A + INR i / n * G).
Proof.
  destruct (ln_ordinary start OA) as [Pa _]. destruct (ln_ordinary stop OB) as [Pb _]. unfold ideal_log, Rpower. rewrite exp_plus. unfold A. rewrite exp_ln by exact Pa.
  f_equal. f_equal. fold n. f_equal. unfold Rdiv. rewrite ln_mult, ln_Rinv by (try apply Rinv_0_lt_compat; lra). reflexivity.
Qed.

Lemma item_right k : (0 <= k <= count - 1)%Z -> let x := ex (element (log start) (log (ndiv F64 stop start)) count k) in
  double x /\ finite x /\ 0 < real x /\ Rabs (ln (real x) - (A + IZR k / n * G)) <= 5600 * e.
Proof.
  intros K x. destruct (element_right k K) as (V & F & E). apply Rabs_le_inv in E. pose proof e_pos. pose proof e_tiny.
  destruct (ln_ordinary start OA) as [Pa LA]. destruct (ln_ordinary stop OB) as [Pb LB]. apply Rabs_le_inv in LA. apply Rabs_le_inv in LB.
  assert (NB : 1 <= n <= 65536) by (unfold n; split; apply IZR_le; lia).
  assert (KB : 0 <= IZR k <= n) by (unfold n; split; apply IZR_le; lia).
  assert (Q01 : 0 <= IZR k / n <= 1).
  { split; [apply Rmult_le_pos; [lra | left; apply Rinv_0_lt_compat; lra] |]. apply Rmult_le_reg_r with n; [lra |]. replace (IZR k / n * n) with (IZR k) by (field; lra). lra. }
  assert (B : -360 <= A + IZR k / n * G <= 360).
  { replace (A + IZR k / n * G) with ((1 - IZR k / n) * A + IZR k / n * ln (real stop)) by (unfold G, A; ring). fold A in LA.
    set (q := IZR k / n) in *.
    assert ((1 - q) * -360 <= (1 - q) * A <= (1 - q) * 360) by (split; apply Rmult_le_compat_l; lra).
    assert (q * -360 <= q * ln (real stop) <= q * 360) by (split; apply Rmult_le_compat_l; lra). lra. }
  destruct (exp_logged ex _ LE V F ltac:(lra)) as (Vx & Fx & Px & Nx). apply Rabs_le_inv in Nx.
  split; [exact Vx |]. split; [exact Fx |]. split; [exact Px |]. apply Rabs_le. fold x in Nx. lra.
Qed.

Lemma split_gap g : bpow radix2 (-21) <= g -> 32768 * e <= g / n.
Proof.
  intros G0. assert (NB : 1 <= n <= 65536) by (unfold n; split; apply IZR_le; lia). pose proof e_pos.
  apply Rmult_le_reg_r with n; [lra |]. replace (g / n * n) with g by (field; lra). apply Rle_trans with (32768 * e * 65536); [apply Rmult_le_compat_l; lra |].
  apply Rle_trans with (2 := G0). change 32768 with (bpow radix2 15). change 65536 with (bpow radix2 16). rewrite <- !bpow_plus. apply bpow_le. lia.
Qed.

Lemma log_double : exists l, logrange64 log ex start stop count = Values l /\ nearly_geometric start stop count l /\
  (real start * (1 + bpow radix2 (-20)) <= real stop -> climbing l) /\ (real stop * (1 + bpow radix2 (-20)) <= real start -> descending l).
Proof.
  destruct OA as (Va & Fa & Ba). destruct (ln_ordinary start OA) as [Pa _]. destruct (ln_ordinary stop OB) as [Pb _]. destruct ratio_right as (Vr & Fr & Pr & _).
  assert (NB : 1 <= n <= 65536) by (unfold n; split; apply IZR_le; lia). pose proof e_pos. pose proof e_tiny.
  set (l := map (fun k => ex (element (log start) (log (ndiv F64 stop start)) count k)) (arange count)).
  assert (At : forall i x, nth_error l i = Some x -> (0 <= Z.of_nat i <= count - 1)%Z /\ x = ex (element (log start) (log (ndiv F64 stop start)) count (Z.of_nat i))).
  { intros i x H'. assert (L : (i < Z.to_nat count)%nat).
    { replace (Z.to_nat count) with (length l) by (unfold l, arange; now rewrite !map_length, seq_length). apply nth_error_Some. congruence. }
    split; [lia |]. unfold l, arange in H'. rewrite !nth_error_map, (nth_error_nth' (seq 0 (Z.to_nat count)) 0%nat), seq_nth in H' by (rewrite ?seq_length; exact L).
    now injection H'. }
  exists l. split; [| split; [split | split]].
  - unfold logrange64, checked_log. rewrite (not_leb_zero start Va Fa Pa), (not_leb_zero _ Vr Fr Pr). reflexivity.
  - unfold l, arange. rewrite !map_length, seq_length. lia.
  - intros i x H'. destruct (At i x H') as [K ->]. destruct (item_right _ K) as (V & F & P & N). split; [exact V |]. split; [exact F |].
    rewrite <- INR_IZR_INZ in N. apply Rabs_le_inv in N. rewrite ideal_exp. pose proof (exp_pos (A + INR i / n * G)) as XP.
    pose proof (near_log _ _ (5600 * e) P XP ltac:(rewrite ln_exp; lra) ltac:(lra)). pose proof (near_log_below _ _ (5600 * e) P XP ltac:(rewrite ln_exp; lra) ltac:(lra)).
    apply Rabs_le. lra.
  - intros W i x y Hx Hy. destruct (At i x Hx) as [K ->]. destruct (At (S i) y Hy) as [K' ->].
    destruct (item_right _ K) as (_ & _ & P & N). destruct (item_right _ K') as (_ & _ & P' & N'). rewrite <- INR_IZR_INZ in N, N'. rewrite S_INR in N'.
    apply Rabs_le_inv in N. apply Rabs_le_inv in N'. apply ln_lt_inv; [exact P | exact P' |].
    pose proof (apart _ _ Pa W) as G0. fold G in G0.
    pose proof (split_gap G G0). replace ((INR i + 1) / n * G) with (INR i / n * G + G / n) in N' by (field; lra). lra.
  - intros W i x y Hx Hy. destruct (At i x Hx) as [K ->]. destruct (At (S i) y Hy) as [K' ->].
    destruct (item_right _ K) as (_ & _ & P & N). destruct (item_right _ K') as (_ & _ & P' & N'). rewrite <- INR_IZR_INZ in N, N'. rewrite S_INR in N'.
    apply Rabs_le_inv in N. apply Rabs_le_inv in N'. apply ln_lt_inv; [exact P' | exact P |].
    pose proof (apart _ _ Pb W) as G0. replace (ln (real start) - ln (real stop)) with (- G) in G0 by (unfold G; ring).
    pose proof (split_gap (- G) G0). replace ((INR i + 1) / n * G) with (INR i / n * G - - G / n) in N' by (field; lra). lra.
Qed.
End Log.

Lemma log_unusable log ex start stop count : nleb F64 start (nofZ F64 0) = true -> logrange64 log ex start stop count = Raised.
Proof. intros H. unfold logrange64, checked_log. now rewrite H. Qed.

Lemma span_example : spans 1 (nofZ F64 0) (nofZ F64 1) /\ (2 <= 11 <= 65537)%Z.
Proof.
  split; [| lia]. assert (R1 : real (nofZ F64 1) = 1) by exact (proj2 (int_ordinary 1 ltac:(lia))). assert (R0 : real (nofZ F64 0) = 0) by reflexivity.
  split; [split; [reflexivity |]; split; [exact I |]; rewrite R0; lra |]. split; [split; [reflexivity |]; split; [exact I |]; rewrite R1; lra |].
  split; [change 1 with (bpow radix2 0); split; apply bpow_le; lia | rewrite R0, R1; lra].
Qed.

Lemma log_example : accurate rounded_log /\ exponential rounded_exp /\ ordinary (nofZ F64 1) /\ ordinary (nofZ F64 3) /\
  real (nofZ F64 1) * (1 + bpow radix2 (-20)) <= real (nofZ F64 3) /\ nleb F64 (SFopp (nofZ F64 1)) (nofZ F64 0) = true.
Proof.
  destruct (int_ordinary 1 ltac:(lia)) as [O1 R1]. destruct (int_ordinary 3 ltac:(lia)) as [O3 R3].
  split; [exact (proj1 Probfn_proofs.probfn_example) |]. split; [exact (proj1 (proj2 Probfn_proofs.probfn_example)) |]. split; [exact O1 |]. split; [exact O3 |].
  split; [| reflexivity]. rewrite R1, R3. assert (bpow radix2 (-20) <= 1) by (change 1 with (bpow radix2 0); apply bpow_le; lia). lra.
Qed.
