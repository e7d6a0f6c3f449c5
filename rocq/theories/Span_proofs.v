(** * Linear ranges in double precision (C105): proofs *)
From Coq Require Import ZArith Reals List Lra Lia Floats.SpecFloat.
From Flocq Require Import Core Relative BinarySingleNaN.
From Verif Require Import Num Double_spec Double_proofs Double_proofs2 Totals Totals_spec
  Totals_proofs Totals_proofs2 Spread_proofs Tabled_proofs Tabled_proofs2 Ranges Ranges_proofs Span_spec.
Import ListNotations.
Local Open Scope R_scope.
Local Instance p53i : Prec_gt_0 53 := eq_refl.
Local Instance e1024i : Prec_lt_emax 53 1024 := eq_refl.

(** One operation, if the result is within bounds. *)
Definition near (x : F64) (r d : R) : Prop := double x /\ finite x /\ Rabs (real x - r) <= d.

Lemma rd_near r B : Rabs r <= B -> Rabs (rd r - r) <= e / 2 * B + tau / 2.
Proof.
  intros H. pose proof (rnd_err r). pose proof e_pos. assert (e / 2 * Rabs r <= e / 2 * B) by (apply Rmult_le_compat_l; lra). lra.
Qed.

Lemma add_near x y B : double x -> finite x -> double y -> finite y -> Rabs (real x + real y) <= B -> B <= bpow radix2 1000 ->
  near (nadd F64 x y) (real x + real y) (e / 2 * B + tau / 2).
Proof.
  intros Vx Fx Vy Fy L H. apply finite_same in Fx, Fy.
  destruct (add_value 53 1024 p53i e1024i x y Vx Vy Fx Fy) as [F E]; [apply small_ok; exact (Rle_trans _ _ _ L H) |].
  split; [now apply (valid_add 53 1024 p53i e1024i) |]. split; [now apply finite_same |].
  change (Rabs (value (SFadd 53 1024 x y) - (real x + real y)) <= e / 2 * B + tau / 2). rewrite E. now apply rd_near.
Qed.

Lemma sub_near x y B : double x -> finite x -> double y -> finite y -> Rabs (real x - real y) <= B -> B <= bpow radix2 1000 ->
  near (nsub F64 x y) (real x - real y) (e / 2 * B + tau / 2).
Proof.
  intros Vx Fx Vy Fy L H. apply finite_same in Fx, Fy.
  destruct (sub_value 53 1024 p53i e1024i x y Vx Vy Fx Fy) as [F E]; [apply small_ok; exact (Rle_trans _ _ _ L H) |].
  split; [now apply (valid_sub 53 1024 p53i e1024i) |]. split; [now apply finite_same |].
  change (Rabs (value (SFsub 53 1024 x y) - (real x - real y)) <= e / 2 * B + tau / 2). rewrite E. now apply rd_near.
Qed.

Lemma div_near x y B : double x -> finite x -> double y -> real y <> 0 -> Rabs (real x / real y) <= B -> B <= bpow radix2 1000 ->
  near (ndiv F64 x y) (real x / real y) (e / 2 * B + tau / 2).
Proof.
  intros Vx Fx Vy Ny L H. apply finite_same in Fx.
  destruct (div_value 53 1024 p53i e1024i x y Vx Vy Fx Ny) as [F E]; [apply small_ok; exact (Rle_trans _ _ _ L H) |].
  split; [now apply (valid_div 53 1024 p53i e1024i) |]. split; [now apply finite_same |].
  change (Rabs (value (SFdiv 53 1024 x y) - (real x / real y)) <= e / 2 * B + tau / 2). rewrite E. now apply rd_near.
Qed.

(** The loop, if the comparisons turn out so. *)
Lemma after_next (d i : F64) n : after F64 d i (S n) = nadd F64 (after F64 d i n) d.
Proof. revert i. induction n as [| n IH]; intros i; [reflexivity |]. cbn [after] in *. now rewrite IH. Qed.

Lemma loop_values stop step n : forall i fuel,
  (forall k, (k <= n)%nat -> nleb F64 (after F64 step i k) (nadd F64 stop (ndiv F64 step (nofZ F64 2))) = true) ->
  nleb F64 (after F64 step i (S n)) (nadd F64 stop (ndiv F64 step (nofZ F64 2))) = false -> (S (S n) <= fuel)%nat ->
  frange_from F64 stop step fuel i = Values (map (after F64 step i) (seq 0 (S n))).
Proof.
  induction n as [| n IH]; intros i fuel A B H.
  - do 2 (destruct fuel as [| fuel]; [exfalso; lia |]). cbn [frange_from]. pose proof (A 0%nat ltac:(lia)) as A0. cbn [after] in A0, B. rewrite A0, B. reflexivity.
  - destruct fuel as [| fuel]; [exfalso; lia |]. cbn [frange_from]. pose proof (A 0%nat ltac:(lia)) as A0. cbn [after] in A0. rewrite A0.
    rewrite (IH (nadd F64 i step) fuel); [| intros k K; exact (A (S k) ltac:(lia)) | exact B | lia].
    f_equal. change (seq 0 (S (S n))) with (0%nat :: seq 1 (S n)). rewrite <- (seq_shift (S n) 0), map_cons, map_map. reflexivity.
Qed.

Section Range.
Variables (M : R) (start stop : F64) (count : Z).
Hypothesis SP : spans M start stop.
Hypothesis CT : (2 <= count <= 65537)%Z.
Let n : R := IZR (count - 1).
Let s := real start.
Let S_ := real stop.
Let E := e * M.
Let h := (S_ - s) / n.

Lemma n_bounds : 1 <= n <= 65536.
Proof. unfold n. split; apply IZR_le; lia. Qed.
Lemma M_pos : 0 < M.
Proof. destruct SP as (_ & _ & B & _). pose proof (bpow_gt_0 radix2 (-900)). lra. Qed.
Lemma E_pos : 0 < E.
Proof. apply Rmult_lt_0_compat; [apply e_pos | apply M_pos]. Qed.
Lemma tau_E : tau <= E.
Proof.
  destruct SP as (_ & _ & B & _). apply Rle_trans with (e * bpow radix2 (-900)).
  - rewrite <- bpow_plus. apply bpow_le. lia.
  - apply Rmult_le_compat_l; [pose proof e_pos; lra | lra].
Qed.
Lemma M_E : M = 4503599627370496 * E.
Proof.
  unfold E. rewrite <- Rmult_assoc. replace (4503599627370496 * e) with 1; [ring |].
  change 4503599627370496 with (bpow radix2 52). rewrite <- bpow_plus. reflexivity.
Qed.
Lemma M_top : 4 * M <= bpow radix2 1000.
Proof.
  destruct SP as (_ & _ & B & _). apply Rle_trans with (4 * bpow radix2 900); [lra |]. change 4 with (bpow radix2 2). rewrite <- bpow_plus. apply bpow_le. lia.
Qed.
Lemma h_n : n * h = S_ - s.
Proof. unfold h. pose proof n_bounds. field. lra. Qed.
Lemma h_bounds : 67108864 * E <= h <= 2 * M.
Proof.
  destruct SP as ((_ & _ & Bs) & (_ & _ & Bt) & _ & W). fold s in Bs, W. fold S_ in Bt, W. pose proof n_bounds. pose proof M_pos. pose proof M_E as ME.
  unfold h. split.
  - apply Rmult_le_reg_r with n; [lra |]. replace ((S_ - s) / n * n) with (S_ - s) by (field; lra).
    apply Rle_trans with (67108864 * E * 65536); [apply Rmult_le_compat_l; [pose proof E_pos; lra | lra] |]. lra.
  - apply Rmult_le_reg_r with n; [lra |]. replace ((S_ - s) / n * n) with (S_ - s) by (field; lra).
    apply Rle_trans with (2 * M * 1); [lra | apply Rmult_le_compat_l; lra].
Qed.

Hypothesis CV : double (nofZ F64 (count - 1)) /\ real (nofZ F64 (count - 1)) = n.
Let d := nsub F64 stop start.
Let q := ndiv F64 d (nofZ F64 (count - 1)).

Lemma step_near : near q h (7 / 2 * E).
Proof.
  destruct SP as ((Vs & Fs & Bs) & (Vt & Ft & Bt) & _ & W). pose proof n_bounds as NB. pose proof M_pos. pose proof M_E as ME. pose proof E_pos. pose proof tau_E. pose proof M_top. pose proof h_bounds as HB.
  fold s in Bs, W. fold S_ in Bt, W. pose proof h_n as HN.
  destruct (sub_near stop start (2 * M) Vt Ft Vs Fs) as (Vd & Fd & Ed); [fold s S_; apply Rabs_le; lra | lra |]. fold s S_ in Ed. fold d in Vd, Fd, Ed.
  assert (Ed' : Rabs (real d - (S_ - s)) <= 3 / 2 * E) by (unfold E in *; lra). apply Rabs_le_inv in Ed'.
  destruct CV as [Vn En].
  assert (DQ : Rabs (real d / n - h) <= 3 / 2 * E).
  { replace (real d / n - h) with ((real d - (S_ - s)) / n) by (unfold h; field; lra). unfold Rdiv. rewrite Rabs_mult, (Rabs_pos_eq (/ n)) by (left; apply Rinv_0_lt_compat; lra).
    apply Rle_trans with (3 / 2 * E * 1); [| lra]. apply Rmult_le_compat; [apply Rabs_pos | left; apply Rinv_0_lt_compat; lra | apply Rabs_le; lra |].
    apply Rle_trans with (/ 1); [apply Rinv_le; lra | lra]. }
  apply Rabs_le_inv in DQ.
  destruct (div_near d (nofZ F64 (count - 1)) (3 * M) Vd Fd Vn) as (Vq & Fq & Eq); [rewrite En; lra | rewrite En; apply Rabs_le; lra | lra |].
  rewrite En in Eq. fold q in Vq, Fq, Eq. split; [exact Vq |]. split; [exact Fq |].
  assert (Eq' : Rabs (real q - real d / n) <= 2 * E) by (unfold E in *; lra). apply Rabs_le_inv in Eq'. apply Rabs_le. lra.
Qed.

Lemma limit_near : near (nadd F64 stop (ndiv F64 q (nofZ F64 2))) (S_ + h / 2) (7 * E).
Proof.
  destruct SP as ((Vs & Fs & Bs) & (Vt & Ft & Bt) & _ & W). pose proof n_bounds as NB. pose proof M_pos. pose proof M_E as ME. pose proof E_pos. pose proof tau_E. pose proof M_top. pose proof h_bounds as HB.
  destruct step_near as (Vq & Fq & Eq). apply Rabs_le_inv in Eq. fold S_ in Bt.
  assert (Two : real (nofZ F64 2) = 2) by (cbn; unfold F2R; cbn; lra).
  destruct (div_near q (nofZ F64 2) (3 * M) Vq Fq eq_refl) as (Vh & Fh & Eh); [rewrite Two; lra | rewrite Two; apply Rabs_le; lra | lra |]. rewrite Two in Eh.
  assert (Eh' : Rabs (real (ndiv F64 q (nofZ F64 2)) - real q / 2) <= 2 * E) by (unfold E in *; lra). apply Rabs_le_inv in Eh'.
  destruct (add_near stop (ndiv F64 q (nofZ F64 2)) (4 * M) Vt Ft Vh Fh) as (Vl & Fl & El); [fold S_; apply Rabs_le; lra | lra |]. fold S_ in El.
  split; [exact Vl |]. split; [exact Fl |].
  assert (El' : Rabs (real (nadd F64 stop (ndiv F64 q (nofZ F64 2))) - (S_ + real (ndiv F64 q (nofZ F64 2)))) <= 5 / 2 * E) by (unfold E in *; lra).
  apply Rabs_le_inv in El'. apply Rabs_le. lra.
Qed.

Lemma value_near k : INR k <= n + 1 -> near (after F64 q start k) (s + INR k * h) (6 * INR k * E) /\
  (INR k <= n -> real (after F64 q start k) < real (nadd F64 (after F64 q start k) q)).
Proof.
  pose proof SP as ((Vs & Fs & Bs) & (Vt & Ft & Bt) & _ & W). pose proof n_bounds as NB. pose proof M_pos. pose proof M_E as ME. pose proof E_pos as EP. pose proof tau_E. pose proof M_top. pose proof h_bounds as HB.
  destruct step_near as (Vq & Fq & Eq). apply Rabs_le_inv in Eq. fold s in Bs. fold S_ in Bt. pose proof h_n as HN.
  assert (one : forall x k', near x (s + INR k' * h) (6 * INR k' * E) -> INR k' <= n ->
    near (nadd F64 x q) (s + INR (S k') * h) (6 * INR (S k') * E) /\ real x < real (nadd F64 x q)).
  { intros x k' (Vx & Fx & Ex) K. apply Rabs_le_inv in Ex. pose proof (pos_INR k').
    assert (K6 : 6 * INR k' * E <= 400000 * E) by (apply Rmult_le_compat_r; lra).
    assert (Kh : INR k' * h <= n * h) by (apply Rmult_le_compat_r; lra). assert (Kh0 : 0 <= INR k' * h) by (apply Rmult_le_pos; lra).
    destruct (add_near x q (4 * M) Vx Fx Vq Fq) as (Va & Fa & Ea); [apply Rabs_le; lra | lra |].
    assert (Ea' : Rabs (real (nadd F64 x q) - (real x + real q)) <= 5 / 2 * E) by (unfold E in *; lra). apply Rabs_le_inv in Ea'.
    split; [| lra]. split; [exact Va |]. split; [exact Fa |]. rewrite S_INR. apply Rabs_le. lra. }
  induction k as [| k IH]; intros K.
  - assert (Z : near (after F64 q start 0) (s + INR 0 * h) (6 * INR 0 * E)).
    { split; [exact Vs |]. split; [exact Fs |]. cbn [INR after]. fold s. replace (s - (s + 0 * h)) with 0 by ring. rewrite Rabs_R0. lra. }
    split; [exact Z |]. intros K'. exact (proj2 (one _ 0%nat Z K')).
  - rewrite S_INR in K. destruct (IH ltac:(lra)) as [N _]. rewrite after_next. destruct (one _ k N ltac:(lra)) as [N' _]. split; [exact N' |].
    intros K'. exact (proj2 (one _ (S k) N' K')).
Qed.

Let m := Z.to_nat (count - 1).
Lemma m_n : INR m = n.
Proof. unfold m, n. rewrite INR_IZR_INZ, Z2Nat.id by lia. reflexivity. Qed.

Lemma linear_double : exists l, yields (fun fuel => linrange F64 fuel start stop count) l /\ nearly_even M start stop count l /\ climbing l.
Proof.
  pose proof n_bounds as NB. pose proof M_E as ME. pose proof E_pos as EP. pose proof h_bounds as HB. pose proof h_n as HN. destruct limit_near as (Vl & Fl & El). apply Rabs_le_inv in El.
  assert (In : forall k, (k <= m)%nat -> INR k <= n) by (intros k K; rewrite <- m_n; now apply le_INR).
  assert (At : forall k x, nth_error (map (after F64 q start) (seq 0 (S m))) k = Some x -> (k <= m)%nat /\ x = after F64 q start k).
  { intros k x H. assert (L : (k < S m)%nat) by (rewrite <- (seq_length (S m) 0), <- (map_length (after F64 q start)); apply nth_error_Some; congruence).
    split; [lia |]. rewrite nth_error_map, (nth_error_nth' (seq 0 (S m)) 0%nat), seq_nth in H by (rewrite ?seq_length; exact L). now injection H. }
  exists (map (after F64 q start) (seq 0 (S m))). split; [| split; [split; [| split] |]].
  - exists (S (S m)). intros fuel H. unfold linrange. replace (count - 1 =? 0)%Z with false by (symmetry; apply Z.eqb_neq; lia).
    unfold frange. fold d q. apply loop_values; [| | exact H].
    + intros k K. destruct (value_near k ltac:(pose proof (In k K); lra)) as [(Vk & Fk & Ek) _]. apply Rabs_le_inv in Ek. apply leb_real; try assumption.
      pose proof (In k K). pose proof (pos_INR k). assert (6 * INR k * E <= 400000 * E) by (apply Rmult_le_compat_r; lra).
      assert (INR k * h <= n * h) by (apply Rmult_le_compat_r; lra). lra.
    + destruct (value_near (S m)) as [(Vk & Fk & Ek) _]; [rewrite S_INR, m_n; lra |]. apply Rabs_le_inv in Ek. rewrite S_INR, m_n in Ek. apply leb_real_false; try assumption.
      assert (6 * (n + 1) * E <= 400000 * E) by (apply Rmult_le_compat_r; lra). lra.
  - rewrite map_length, seq_length. unfold m. lia.
  - reflexivity.
  - intros k x H. destruct (At k x H) as [K ->]. exact (proj1 (value_near k ltac:(pose proof (In k K); lra))).
  - intros k x y Hx Hy. destruct (At k x Hx) as [_ ->]. destruct (At _ y Hy) as [K ->]. rewrite after_next. exact (proj2 (value_near k ltac:(pose proof (In k ltac:(lia)); lra)) (In k ltac:(lia))).
Qed.
End Range.

Lemma linear_span M start stop count : spans M start stop -> (2 <= count <= 65537)%Z ->
  exists l, yields (fun fuel => linrange F64 fuel start stop count) l /\ nearly_even M start stop count l /\ climbing l.
Proof.
  intros SP CT. apply linear_double; [exact SP | exact CT |]. destruct (exact_int (count - 1) ltac:(lia)) as (V & _ & E). split; assumption.
Qed.
