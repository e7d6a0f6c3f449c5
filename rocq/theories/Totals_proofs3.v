(** * Weighted sums, plain sums and the distributions made of them (C94) *)
From Coq Require Import ZArith Reals List Lra Lia Floats.SpecFloat.
From Flocq Require Import Core Relative BinarySingleNaN.
From Verif Require Import Num Double_spec Double_proofs Double_proofs2 Maq_return_proofs Group Totals Totals_spec
  Totals_proofs Totals_proofs2.
Import ListNotations.
Local Open Scope R_scope.
Local Instance p53i : Prec_gt_0 53 := eq_refl.
Local Instance e1024i : Prec_lt_emax 53 1024 := eq_refl.

(** ** Weights *)

Lemma add_step k t acc A p v V : 3 <= k -> 0 <= t -> k * e <= 1 / 16 -> (t + 4) * e <= 1 / 16 ->
  A <= bpow radix2 900 -> V <= bpow radix2 801 -> near k t acc A -> near 2 3 v V -> chance p ->
  near (k + 1) (t + 5) (nadd F64 acc (nmul F64 v p)) (A + real p * V).
Proof.
  intros Hk Ht Bk Bt BA BV NA NV C. pose proof e_pos. pose proof e_small. assert (C' := C). destruct C' as (_ & _ & Bp).
  assert (PV : 0 <= V) by apply NV.
  assert (B801 : bpow radix2 801 <= bpow radix2 900) by (apply bpow_le; lia).
  replace (t + 5) with (t + 4 + 1) by ring. apply near_add with (k' := 3); try assumption; try lra.
  - apply Rle_trans with (1 * V); [apply Rmult_le_compat_r; lra | lra].
  - replace 3 with (2 + 1) by ring. replace 4 with (3 + 1) by ring. apply near_scale; try assumption; try lra.
Qed.

Lemma weigh_near l : forall k t m M q Q, Forall usable l -> 3 <= k -> 0 <= t ->
  (k + INR (List.length l)) * e <= 1 / 16 -> (t + 5 * INR (List.length l)) * e <= 1 / 16 ->
  M + INR (List.length l) * bpow radix2 400 <= bpow radix2 430 -> Q + INR (List.length l) * bpow radix2 801 <= bpow radix2 900 ->
  near k t m M -> near k t q Q ->
  let n := INR (List.length l) in
  near (k + n) (t + 5 * n) (fst (weigh l m q)) (M + mixture_mean (cases l)) /\
  near (k + n) (t + 5 * n) (snd (weigh l m q)) (Q + mixture_square (cases l)) /\
  0 <= mixture_mean (cases l) <= n * bpow radix2 400 /\ 0 <= mixture_square (cases l) <= n * bpow radix2 801.
Proof.
  induction l as [|[x w] l IH]; intros k t m M q Q U Hk Ht Bk Bt BM BQ Nm Nq.
  - cbn -[INR bpow]. change (INR 0) with 0. rewrite !Rmult_0_l, Rmult_0_r, !Rplus_0_r. split; [exact Nm |]. split; [exact Nq |]. lra.
  - inversion U as [|? ? [Kx Cw] U']; subst. cbn [fst snd] in *. cbn [weigh cases map mixture_mean mixture_square].
    fold (cases l). cbn [List.length] in *. rewrite S_INR in *. pose proof (pos_INR (List.length l)) as Pn.
    set (n := INR (List.length l)) in *. pose proof e_pos. pose proof e_small. cbn zeta.
    pose proof (bpow_gt_0 radix2 400) as P400. pose proof (bpow_gt_0 radix2 801) as P801.
    assert (Pn4 : 0 <= n * bpow radix2 400) by (apply Rmult_le_pos; lra).
    assert (Pn8 : 0 <= n * bpow radix2 801) by (apply Rmult_le_pos; lra).
    assert (ne : 0 <= n * e) by (apply Rmult_le_pos; lra).
    destruct (near_moment x Kx) as [Nx Bx]. destruct Kx as [Km Ks]. pose proof (between_near _ Km) as Nm'.
    assert (C' := Cw). destruct C' as (_ & _ & Bw). destruct Km as (_ & _ & Bm).
    assert (B48 : bpow radix2 400 <= bpow radix2 801) by (apply bpow_le; lia).
    assert (B49 : bpow radix2 430 <= bpow radix2 900) by (apply bpow_le; lia).
    assert (W1 : 0 <= real w * real (c_mean x) <= bpow radix2 400).
    { split; [apply Rmult_le_pos; lra |]. apply Rle_trans with (1 * real (c_mean x)); [apply Rmult_le_compat_r; lra | lra]. }
    set (sq := real (c_mean x) * real (c_mean x) + real (c_sd x) * real (c_sd x)) in *.
    assert (Psq : 0 <= sq) by apply Nx.
    assert (W2 : 0 <= real w * sq <= bpow radix2 801).
    { split; [apply Rmult_le_pos; lra |]. apply Rle_trans with (1 * sq); [apply Rmult_le_compat_r; lra | lra]. }
    assert (S1 : near (k + 1) (t + 5) (nadd F64 m (nmul F64 (c_mean x) w)) (M + real w * real (c_mean x))).
    { apply add_step; try assumption; try lra. eapply near_weaken; [| | exact Nm']; lra. }
    assert (S2 : near (k + 1) (t + 5) (nadd F64 q (nmul F64 (square x) w)) (Q + real w * sq)).
    { apply add_step; try assumption; try lra. }
    destruct (IH (k + 1) (t + 5) _ (M + real w * real (c_mean x)) _ (Q + real w * sq) U' ltac:(lra) ltac:(lra) ltac:(lra) ltac:(lra) ltac:(lra) ltac:(lra) S1 S2)
      as (A & B & C1 & C2). fold n in A, B, C1, C2.
    replace (k + (n + 1)) with (k + 1 + n) by ring. replace (t + 5 * (n + 1)) with (t + 5 + 5 * n) by ring.
    replace (M + (real w * real (c_mean x) + mixture_mean (cases l))) with (M + real w * real (c_mean x) + mixture_mean (cases l)) by ring.
    replace (Q + (real w * sq + mixture_square (cases l))) with (Q + real w * sq + mixture_square (cases l)) by ring.
    split; [exact A |]. split; [exact B |]. lra.
Qed.

Lemma length_bound (n : nat) : (n <= 2 ^ 20)%nat -> INR n <= bpow radix2 20.
Proof. intros H. apply le_INR in H. replace (INR (2 ^ 20)) with (bpow radix2 20) in H; [exact H |]. rewrite pow_INR. change (INR 2) with (1 + 1). change (bpow radix2 20) with (IZR 1048576). lra. Qed.

(** A deviation taken from an absolute value. *)
Lemma abs_root k t k' t' q m Q M : 0 <= k -> 0 <= t -> 0 <= k' -> 0 <= t' ->
  k * e <= 1 / 16 -> t * e <= 1 / 16 -> k' * e <= 1 / 16 -> t' * e <= 1 / 16 ->
  Q <= bpow radix2 899 -> M <= bpow radix2 430 -> near k t q Q -> near k' t' m M ->
  let s := root (nabs F64 (nsub F64 q (nmul F64 m m))) in
  double s /\ finite s /\ 0 <= real s /\
  Rabs (real s * real s - Rabs (Q - M * M)) <= (k + 4) * e * Q + (3 * k' + 5) * e * (M * M) + bpow radix2 (-570).
Proof.
  intros Hk Ht Hk' Ht' Bk Bt Bk' Bt' BQ BM Nq Nm s. pose proof e_pos. pose proof e_small.
  assert (B9 : bpow radix2 899 <= bpow radix2 900) by (apply bpow_le; lia).
  destruct (variance_value k t k' t' q m Q M Hk Ht Hk' Ht' Bk Bt Bk' Bt' ltac:(lra) BM Nq Nm) as (V & F & E).
  unfold s. set (v := nsub F64 q (nmul F64 m m)) in *.
  assert (PQ : 0 <= Q) by apply Nq. assert (PM : 0 <= M) by apply Nm.
  assert (MM : 0 <= M * M) by (apply Rmult_le_pos; lra).
  assert (BMM : M * M <= bpow radix2 860).
  { change 860%Z with (430 + 430)%Z. rewrite bpow_plus. apply Rmult_le_compat; lra. }
  assert (B8 : bpow radix2 860 <= bpow radix2 899) by (apply bpow_le; lia).
  pose proof (one_big 860 ltac:(lia)) as O8.
  set (g := bpow radix2 (-580)) in *. assert (Pg : 0 < g) by apply bpow_gt_0.
  assert (g1 : g <= 1) by (change 1 with (bpow radix2 0); unfold g; apply bpow_le; lia).
  assert (G : 4 * g <= bpow radix2 (-570)).
  { apply Rle_trans with (bpow radix2 2 * g); [change (bpow radix2 2) with 4; lra |]. unfold g. rewrite <- bpow_plus. apply bpow_le. lia. }
  assert (Ea : value (nabs F64 v) = Rabs (value v)) by apply (abs_value v).
  assert (kQ : k * e * Q <= 1 / 16 * Q) by (apply Rmult_le_compat_r; lra).
  assert (kM : k' * e * (M * M) <= 1 / 16 * (M * M)) by (apply Rmult_le_compat_r; lra).
  assert (eQ : e * Q <= 1 / 1000000 * Q) by (apply Rmult_le_compat_r; lra).
  assert (eM : e * (M * M) <= 1 / 1000000 * (M * M)) by (apply Rmult_le_compat_r; lra).
  assert (D : Rabs (Rabs (value v) - Rabs (Q - M * M)) <= (k + 1) * e * Q + (3 * k' + 2) * e * (M * M) + g).
  { eapply Rle_trans; [apply Rabs_triang_inv2 | exact E]. }
  assert (AQ : Rabs (Q - M * M) <= Q + M * M) by (apply Rabs_le; lra).
  assert (Bv : Rabs (value v) <= 5 / 4 * Q + 5 / 4 * (M * M) + g) by (apply Rabs_le_inv in D; lra).
  destruct (root_near (nabs F64 v)) as (Vr & Fr & Pr & Er).
  { apply (valid_abs 53 1024). exact V. }
  { apply finite_abs. exact F. }
  { rewrite Ea. apply Rabs_pos. }
  specialize (Er ltac:(rewrite Ea; apply Rle_trans with (2 * (2 * bpow radix2 899)); [lra | rewrite !big_double; apply bpow_le; lia])).
  fold g in Er. rewrite Ea in Er.
  split; [exact Vr |]. split; [apply finite_same; exact Fr |]. split; [exact Pr |].
  change (real (root (nabs F64 v))) with (value (root (nabs F64 v))). set (z := value (root (nabs F64 v))) in *.
  replace (z * z - Rabs (Q - M * M)) with ((z * z - Rabs (value v)) + (Rabs (value v) - Rabs (Q - M * M))) by ring.
  eapply Rle_trans; [apply Rabs_triang |].
  assert (eV : e * Rabs (value v) <= e * (5 / 4 * Q + 5 / 4 * (M * M) + g)) by (apply Rmult_le_compat_l; lra).
  assert (eg : e * g <= 1 / 1000000 * g) by (apply Rmult_le_compat_r; lra).
  assert (0 <= e * Q) by (apply Rmult_le_pos; lra). assert (0 <= e * (M * M)) by (apply Rmult_le_pos; lra).
  lra.
Qed.

Lemma weighted_right l : Forall usable l -> (List.length l <= 2 ^ 20)%nat ->
  let n := INR (List.length l) in
  let M := mixture_mean (cases l) in
  let Q := mixture_square (cases l) in
  let x := weighted l in
  double (c_mean x) /\ finite (c_mean x) /\ 0 <= real (c_mean x) /\
  Rabs (real (c_mean x) - M) <= (n + 3) * bpow radix2 (-52) * M + bpow radix2 (-1000) /\
  double (c_sd x) /\ finite (c_sd x) /\ 0 <= real (c_sd x) /\
  Rabs (real (c_sd x) * real (c_sd x) - Rabs (mixture_variance (cases l))) <=
    (3 * n + 14) * bpow radix2 (-52) * (Q + M * M) + bpow radix2 (-570).
Proof.
  intros U L n M Q x. pose proof (length_bound _ L) as Bn. fold n in Bn. assert (Pn : 0 <= n) by apply pos_INR.
  pose proof e_pos. pose proof e_small. pose proof tau_pos.
  assert (E32 : bpow radix2 20 * e = bpow radix2 (-32)) by (rewrite <- bpow_plus; reflexivity).
  assert (S32 : bpow radix2 (-32) <= 1 / 1000).
  { apply Rle_trans with (bpow radix2 (-10)); [apply bpow_le; lia |]. change (bpow radix2 (-10)) with (/ 1024). lra. }
  assert (ne : n * e <= bpow radix2 (-32)) by (rewrite <- E32; apply Rmult_le_compat_r; lra).
  assert (n4 : n * bpow radix2 400 <= bpow radix2 420).
  { change 420%Z with (20 + 400)%Z. rewrite bpow_plus. apply Rmult_le_compat_r; [apply bpow_ge_0 | exact Bn]. }
  assert (n8 : n * bpow radix2 801 <= bpow radix2 821).
  { change 821%Z with (20 + 801)%Z. rewrite bpow_plus. apply Rmult_le_compat_r; [apply bpow_ge_0 | exact Bn]. }
  assert (b4 : bpow radix2 420 <= bpow radix2 430) by (apply bpow_le; lia).
  assert (b8 : bpow radix2 821 <= bpow radix2 899) by (apply bpow_le; lia).
  assert (b9 : bpow radix2 899 <= bpow radix2 900) by (apply bpow_le; lia).
  assert (Z : near 3 0 (nofZ F64 0) 0).
  { repeat split; try reflexivity; try (cbn; lra). change (value (nofZ F64 0)) with 0. rewrite Rminus_0_r, Rabs_R0. lra. }
  destruct (weigh_near l 3 0 _ 0 _ 0 U ltac:(lra) ltac:(lra) ltac:(fold n; lra) ltac:(fold n; lra) ltac:(fold n; lra) ltac:(fold n; lra) Z Z)
    as (A & B & C1 & C2). fold n M Q in A, B, C1, C2. rewrite !Rplus_0_l in A, B.
  unfold x, weighted. destruct (weigh l (nofZ F64 0) (nofZ F64 0)) as [m q]. cbn [fst snd c_mean c_sd] in *.
  destruct (abs_root (3 + n) (5 * n) (3 + n) (5 * n) q m Q M ltac:(lra) ltac:(lra) ltac:(lra) ltac:(lra) ltac:(lra) ltac:(lra)
     ltac:(lra) ltac:(lra) ltac:(lra) ltac:(lra) B A) as (V1 & V2 & V3 & V4).
  destruct A as (Vm & Fm & Pm & PM & Em).
  split; [exact Vm |]. split; [apply finite_same; exact Fm |]. split; [exact Pm |]. split.
  { change (real m) with (value m). eapply Rle_trans; [exact Em |].
    assert (5 * n * tau <= bpow radix2 (-1000)).
    { apply Rle_trans with (bpow radix2 (20 + 20) * tau); [| rewrite <- bpow_plus; apply bpow_le; lia].
      apply Rmult_le_compat_r; [lra |]. rewrite bpow_plus. pose proof (one_big 20 ltac:(lia)).
      assert (1000 <= bpow radix2 20) by (apply Rle_trans with (bpow radix2 10); [change (bpow radix2 10) with 1024; lra | apply bpow_le; lia]).
      assert (1000 * bpow radix2 20 <= bpow radix2 20 * bpow radix2 20) by (apply Rmult_le_compat_r; lra). lra. }
    lra. }
  split; [exact V1 |]. split; [exact V2 |]. split; [exact V3 |]. unfold mixture_variance. fold Q M.
  eapply Rle_trans; [exact V4 |].
  assert (0 <= e * Q) by (apply Rmult_le_pos; lra). assert (0 <= n * (e * Q)) by (apply Rmult_le_pos; lra).
  assert (0 <= M * M) by (apply Rmult_le_pos; lra).
  assert (0 <= e * (M * M)) by (apply Rmult_le_pos; lra). lra.
Qed.

(** What is made of the two annual integrals. *)
Lemma annual_right mu beta : between 0 (bpow radix2 400) mu -> between 0 (bpow radix2 800) beta ->
  let s := c_sd (annual mu beta) in
  double s /\ finite s /\ 0 <= real s /\
  Rabs (real s * real s - Rabs (real beta - real mu * real mu)) <=
    bpow radix2 (-49) * (real beta + real mu * real mu) + bpow radix2 (-570).
Proof.
  intros (Vm & Fm & Bm) (Vb & Fb & Bb) s. pose proof e_pos. pose proof e_small.
  assert (b4 : bpow radix2 400 <= bpow radix2 430) by (apply bpow_le; lia).
  assert (b8 : bpow radix2 800 <= bpow radix2 899) by (apply bpow_le; lia).
  destruct (abs_root 0 0 0 0 beta mu (real beta) (real mu) ltac:(lra) ltac:(lra) ltac:(lra) ltac:(lra) ltac:(lra) ltac:(lra) ltac:(lra)
    ltac:(lra) ltac:(lra) ltac:(lra) (near_exact _ Vb Fb (proj1 Bb)) (near_exact _ Vm Fm (proj1 Bm))) as (V1 & V2 & V3 & V4).
  split; [exact V1 |]. split; [exact V2 |]. split; [exact V3 |]. eapply Rle_trans; [exact V4 |].
  assert (P49 : 8 * e = bpow radix2 (-49)).
  { change (-49)%Z with (3 + -52)%Z. rewrite bpow_plus. reflexivity. }
  rewrite <- P49. assert (0 <= real mu * real mu) by (apply Rmult_le_pos; lra).
  assert (0 <= e * real beta) by (apply Rmult_le_pos; lra). assert (0 <= e * (real mu * real mu)) by (apply Rmult_le_pos; lra). lra.
Qed.

(** ** Plain sums *)

Lemma counts_nn x : double x -> nn x -> x <> S754_nan -> counts x.
Proof. intros D N Z. split; [exact D |]. destruct x as [s|[]| |[] m k]; try easy; destruct s; reflexivity. Qed.
Lemma counts_inv x : counts x -> double x /\ nn x /\ x <> S754_nan.
Proof. intros [D L]. split; [exact D |]. destruct x as [s|[]| |[] m k]; cbn in *; try discriminate; split; easy. Qed.

Lemma add_not_nan x y : double x -> double y -> nn x -> nn y -> x <> S754_nan -> y <> S754_nan -> SFadd 53 1024 x y <> S754_nan.
Proof.
  intros Vx Vy Nx Ny Zx Zy.
  assert (C : (finite_ x /\ finite_ y) \/ ~ (finite_ x /\ finite_ y)).
  { unfold finite_. destruct (is_finite_SF x), (is_finite_SF y); intuition discriminate. }
  destruct C as [[Fx Fy]|C].
  - destruct (B_value x Vx) as [a ->]. destruct (B_value y Vy) as [b ->].
    rewrite (add_same 53 1024 p53 e1024). apply finite_B in Fx. apply finite_B in Fy.
    generalize (Bplus_correct 53 1024 p53 e1024 mode_NE a b Fx Fy). destruct (Rlt_bool _ _).
    + intros (_ & F & _) E. destruct (Bplus _ _ _); discriminate.
    + intros (E & _). rewrite E. discriminate.
  - destruct x as [[]|[]| |[] ? ?], y as [[]|[]| |[] ? ?]; cbn in *; try easy; exfalso; apply C; easy.
Qed.

Lemma mul_not_nan x y : double x -> double y -> finite_ x -> finite_ y -> SFmul 53 1024 x y <> S754_nan.
Proof.
  intros Vx Vy Fx Fy. destruct (B_value x Vx) as [a ->]. destruct (B_value y Vy) as [b ->].
  rewrite (mul_same 53 1024 p53 e1024). apply finite_B in Fx. apply finite_B in Fy.
  generalize (Bmult_correct 53 1024 p53 e1024 mode_NE a b). destruct (Rlt_bool _ _).
  - intros (_ & F & _) E. rewrite Fx, Fy in F. destruct (Bmult _ _ _); discriminate.
  - intros E. rewrite E. discriminate.
Qed.

Lemma counts_add x y : counts x -> counts y -> counts (nadd F64 x y).
Proof.
  intros X Y. apply counts_inv in X. apply counts_inv in Y. destruct X as (Vx & Nx & Zx), Y as (Vy & Ny & Zy).
  apply counts_nn; [apply (valid_add 53 1024 p53 e1024); assumption | apply nn_add; assumption | apply add_not_nan; assumption].
Qed.

Lemma counts_mul x y : counts x -> counts y -> finite x -> finite y -> counts (nmul F64 x y).
Proof.
  intros X Y Fx Fy. apply counts_inv in X. apply counts_inv in Y. destruct X as (Vx & Nx & Zx), Y as (Vy & Ny & Zy).
  apply finite_same in Fx. apply finite_same in Fy.
  apply counts_nn; [apply (valid_mul 53 1024 p53 e1024); assumption | apply nn_mul; assumption | apply mul_not_nan; assumption].
Qed.

Lemma counts_root x : counts x -> counts (root x).
Proof.
  intros X. apply counts_inv in X. destruct X as (V & N & Z).
  destruct (fin_cases x N) as [F | [-> | ->]]; [| split; reflexivity | now destruct Z].
  assert (P : 0 <= value x) by (apply nn_value; assumption).
  destruct (root_value x V F P) as [Fr Er]. apply counts_nn; [now apply root_valid | |].
  - apply nn_value; [exact Fr |]. rewrite Er. apply rnd_nonneg. apply sqrt_pos.
  - intros E. rewrite E in Fr. discriminate.
Qed.

Lemma zero_counts : counts (nofZ F64 0). Proof. split; reflexivity. Qed.

Lemma zero_times s : counts s -> finite s -> nmul F64 (nofZ F64 0) s = S754_zero false \/ nmul F64 (nofZ F64 0) s = S754_zero true.
Proof. intros _ F. destruct s as [[]|s| |[] m k]; try easy; cbn; auto. Qed.

Lemma counts_nothing s l : forall v, counts s -> finite s -> Forall plain l -> counts v -> counts (nothing s l v).
Proof.
  induction l as [|y l IH]; intros v S F P V; [exact V |]. inversion P as [|? ? (_ & _ & Y & Fy) P']; subst.
  cbn [nothing]. apply IH; [assumption .. |]. apply counts_add; [exact V |]. apply counts_mul; [| exact Y | | exact Fy].
  - apply counts_mul; [apply zero_counts | exact S | easy | exact F].
  - destruct (zero_times s S F) as [-> | ->]; easy.
Qed.

Lemma counts_gather l : forall m v, Forall plain l -> counts m -> counts v ->
  counts (fst (gather l m v)) /\ counts (snd (gather l m v)).
Proof.
  induction l as [|x l IH]; intros m v P M V; [split; assumption |]. inversion P as [|? ? (X & _ & S & Fs) P']; subst.
  cbn [gather]. apply IH; [exact P' | now apply counts_add |].
  apply counts_nothing; try assumption. apply counts_add; [exact V |]. now apply counts_mul.
Qed.

Lemma added_right l : Forall plain l -> counts (c_mean (added l)) /\ counts (c_sd (added l)).
Proof.
  intros P. unfold added. pose proof (counts_gather l (nofZ F64 0) (nofZ F64 0) P zero_counts zero_counts) as [A B].
  destruct (gather l (nofZ F64 0) (nofZ F64 0)) as [m v]. cbn [fst snd c_mean c_sd] in *. split; [exact A | now apply counts_root].
Qed.
