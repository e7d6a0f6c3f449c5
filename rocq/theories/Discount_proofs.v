(** * Costs over years in double precision (C100) *)
From Coq Require Import ZArith Reals List Lra Lia Floats.SpecFloat.
From Flocq Require Import Core Relative BinarySingleNaN.
From Verif Require Import Num Double_spec Double_proofs Double_proofs2 Maq_double_proofs Deriv_proofs3 Totals Totals_spec
  Totals_proofs Totals_proofs2 Totals_proofs4 Totals_proofs6 Totals_proofs7 Spread Spread_spec Spread_proofs Spread_proofs4
  Tabled_proofs Tabled_proofs2 Hyperbola Hyperbola_spec Hyperbola_proofs Hyperbola_proofs2 Hyperbola_proofs3 Discount Discount_spec.
Local Open Scope R_scope.
Local Instance p53i : Prec_gt_0 53 := eq_refl.
Local Instance e1024i : Prec_lt_emax 53 1024 := eq_refl.
Local Instance fx : Valid_exp (SpecFloat.fexp 53 1024) := fexp_correct 53 1024 p53i.

(** An exponential of a number that is nearly right. *)
Lemma ex_near ex t u : rising_exp ex -> double t -> finite t -> real t <= 0 -> 0 <= u ->
  Rabs (real t - - u) <= e * u + tau -> Rabs (real (ex t) - exp (- u)) <= 7 * e.
Proof.
  intros LE Vt Ft Tn UP N. pose proof e_pos as E. pose proof e_small as Es. pose proof tau_pos as T0.
  destruct LE as (X & R & M). destruct (R t Vt Ft Tn) as (_ & _ & Bg).
  assert (b8 : bpow radix2 (-8) = 1 / 256) by (cbn; lra).
  assert (te : tau <= e * e) by (rewrite <- bpow_plus; apply bpow_le; lia).
  assert (ee : e * e <= 1 / 1000000 * e) by (apply Rmult_le_compat_r; lra).
  assert (eu : e * u <= 1 / 1000000 * u) by (apply Rmult_le_compat_r; lra).
  assert (Far : real t <= -600 -> Rabs (real (ex t) - exp (- u)) <= 7 * e).
  { intros TL. pose proof N as N'. apply Rabs_le_inv in N'. destruct m600_is as (V6 & F6 & E6).
    pose proof (M t m600 Vt Ft V6 F6 ltac:(rewrite E6; lra)) as Mo.
    destruct (X m600 V6 F6) as (_ & _ & A & _); [rewrite E6, Rabs_left1; lra |]. rewrite E6 in A. rewrite e50 in A.
    assert (Lo : exp (- u) <= e * (1 / 2)).
    { apply Rle_trans with (exp (-599)); [apply exp_le; lra |]. replace (-599) with (-600 + 1) by ring. rewrite exp_plus.
      pose proof (exp_tiny (-600) ltac:(lra)) as T6. rewrite b8 in T6. pose proof exp_le_3. pose proof (exp_pos 1). pose proof (exp_pos (-600)).
      apply Rle_trans with (e * (1 / 256) * 3); [apply Rmult_le_compat; lra | lra]. }
    pose proof (exp_tiny (-600) ltac:(lra)) as T6. rewrite b8 in T6.
    pose proof (exp_pos (-600)). pose proof (exp_pos (- u)). apply Rabs_le_inv in A.
    assert (e * exp (-600) <= e * 1) by (apply Rmult_le_compat_l; lra). apply Rabs_le. lra. }
  destruct (Rle_or_lt (real t) (-600)) as [T6 | T6]; [now apply Far |].
  pose proof N as N'. apply Rabs_le_inv in N'. assert (U : u <= 601) by lra.
  destruct (exp_damped u UP) as [D1 _].
  set (d := e * u + tau) in *. assert (Hd : 0 <= d <= 1 / 1000) by (unfold d; assert (0 <= e * u) by (apply Rmult_le_pos; lra); lra).
  assert (MV : Rabs (exp (real t) - exp (- u)) <= d * exp (- u + d)).
  { eapply Rle_trans; [apply (exp_near (real t) (- u) (- u + d)); lra |]. apply Rmult_le_compat_r; [left; apply exp_pos | exact N]. }
  assert (Ed : exp (- u + d) <= 101 / 100 * exp (- u)).
  { rewrite exp_plus, Rmult_comm. apply Rmult_le_compat_r; [left; apply exp_pos |].
    pose proof (exp_ineq1_le (- d)) as I. rewrite exp_Ropp in I. pose proof (exp_pos d) as Pd.
    assert (exp d * (1 + - d) <= 1) by (apply Rle_trans with (exp d * / exp d); [apply Rmult_le_compat_l; lra | rewrite Rinv_r; lra]).
    assert (exp d * (999 / 1000) <= exp d * (1 + - d)) by (apply Rmult_le_compat_l; lra). lra. }
  pose proof (exp_pos (- u)) as Pu. assert (eu1 : exp (- u) <= 1) by (rewrite <- exp_0; apply exp_le; lra).
  assert (MV2 : Rabs (exp (real t) - exp (- u)) <= 2 * e).
  { eapply Rle_trans; [exact MV |]. apply Rle_trans with (d * (101 / 100 * exp (- u))); [apply Rmult_le_compat_l; lra |].
    unfold d. replace ((e * u + tau) * (101 / 100 * exp (- u))) with (101 / 100 * (e * (u * exp (- u)) + tau * exp (- u))) by ring.
    assert (e * (u * exp (- u)) <= e * 1) by (apply Rmult_le_compat_l; lra).
    assert (tau * exp (- u) <= tau * 1) by (apply Rmult_le_compat_l; lra). lra. }
  destruct (X t Vt Ft) as (_ & _ & A & _); [rewrite Rabs_left1; lra |]. rewrite e50 in A.
  assert (exp (real t) <= 1) by (rewrite <- exp_0; apply exp_le; lra). pose proof (exp_pos (real t)).
  assert (e * exp (real t) <= e * 1) by (apply Rmult_le_compat_l; lra).
  apply Rabs_le_inv in A. apply Rabs_le_inv in MV2. apply Rabs_le. lra.
Qed.

Lemma opp_is r : double r -> finite r -> double (SFopp r) /\ finite_ (SFopp r) /\ value (SFopp r) = - real r.
Proof.
  intros V F. destruct r as [s | | | s m k]; try easy.
  - split; [reflexivity |]. split; [reflexivity |]. unfold value, real. cbn. lra.
  - split; [exact V |]. split; [reflexivity |]. unfold value, real. cbn [SFopp SF2R]. rewrite <- F2R_Zopp. f_equal. f_equal. now destruct s.
Qed.

Section Cost.
  Variables (ex : F64 -> F64) (mean rate : F64).
  Hypotheses (LE : rising_exp ex) (Pm : amount mean) (Pr : discount rate).

  Lemma rate_pos : 0 < real rate <= bpow radix2 400.
  Proof. destruct Pr as (_ & _ & B). pose proof (bpow_gt_0 radix2 (-600)). lra. Qed.

  (** Auxiliary names for this proof: the exponent, and the share of the cost of all years. *)
  Definition expo (y : Z) : F64 := nmul F64 (SFopp rate) (nofZ F64 y).

  Lemma expo_is y : years y -> double (expo y) /\ finite (expo y) /\ real (expo y) = - rd (real rate * IZR y) /\ real (expo y) <= 0.
  Proof.
    intros Y. destruct (exact_int y Y) as (Vy & Fy & Ey). destruct Pr as (Vr & Fr & Br). destruct (opp_is rate Vr Fr) as (Vo & Fo & Eo).
    pose proof rate_pos as RP. destruct Y as [Y0 Y1].
    assert (I0 : 0 <= IZR y <= bpow radix2 31).
    { change (bpow radix2 31) with (IZR (2 ^ 31)). change 0 with (IZR 0). split; apply IZR_le; lia. }
    assert (P : 0 <= real rate * IZR y) by (apply Rmult_le_pos; lra).
    assert (B : real rate * IZR y <= bpow radix2 1000).
    { apply Rle_trans with (bpow radix2 400 * bpow radix2 31); [apply Rmult_le_compat; lra |]. rewrite <- bpow_plus. apply bpow_le. lia. }
    destruct (mul_value 53 1024 p53i e1024i _ _ Vo Vy Fo Fy) as [Fm Em].
    { rewrite Eo, Ey. apply small_ok. replace (- real rate * IZR y) with (- (real rate * IZR y)) by ring. rewrite Rabs_Ropp, Rabs_pos_eq; lra. }
    pose proof (valid_mul 53 1024 p53i e1024i _ _ Vo Vy) as Vm. rewrite Eo, Ey in Em.
    replace (- real rate * IZR y) with (- (real rate * IZR y)) in Em by ring. rewrite rnd_opp in Em.
    split; [exact Vm |]. split; [apply finite_same; exact Fm |]. split; [exact Em |].
    change (real (expo y)) with (value (SFmul 53 1024 (SFopp rate) (nofZ F64 y))). rewrite Em. pose proof (rnd_nonneg _ P). lra.
  Qed.

  (** The share, see above. *)
  Definition share (y : Z) : R := rd (1 - real (ex (expo y))).

  Lemma cost_is y : years y ->
    double (cost_over ex mean y rate) /\ finite (cost_over ex mean y rate) /\
    real (cost_over ex mean y rate) = rd (rd (share y / real rate) * real mean) /\ 0 <= share y <= 1.
  Proof.
    intros Y. destruct (expo_is y Y) as (Vt & Ft & _ & Bt). pose proof LE as (_ & R & _). destruct (R _ Vt Ft Bt) as (Vg & Fg & Bg).
    unfold cost_over. fold (expo y). set (g := ex (expo y)) in *. unfold share. fold g. destruct one_value as (V1 & F1 & E1).
    apply finite_same in Fg. change (real g) with (value g) in *.
    destruct (sub_value 53 1024 p53i e1024i _ g V1 Vg F1 Fg) as [Fs Es]; [rewrite E1; apply small_ok'; lra |].
    pose proof (valid_sub 53 1024 p53i e1024i _ g V1 Vg) as Vs. rewrite E1 in Es. set (s := SFsub 53 1024 (nofZ F64 1) g) in *.
    assert (Bs : 0 <= rd (1 - value g) <= 1).
    { split; [apply rnd_nonneg; lra |]. apply Rle_trans with (rd 1); [apply rd_le; lra | rewrite rnd64_1; lra]. }
    destruct Pr as (Vr & Fr & Br). pose proof (bpow_gt_0 radix2 (-600)) as P6. destruct Pm as (Vm & Fm & Bm). apply finite_same in Fr, Fm.
    change (real rate) with (value rate) in *. change (real mean) with (value mean) in *.
    assert (Q : 0 <= rd (1 - value g) / value rate <= bpow radix2 600).
    { split; [apply Rmult_le_pos; [lra | apply Rlt_le, Rinv_0_lt_compat; lra] |].
      apply Rle_trans with (1 * / value rate); [apply Rmult_le_compat_r; [apply Rlt_le, Rinv_0_lt_compat; lra | lra] |].
      rewrite Rmult_1_l. replace (bpow radix2 600) with (/ bpow radix2 (-600)) by (rewrite <- bpow_opp; reflexivity). apply Rinv_le; lra. }
    assert (b6 : bpow radix2 600 <= bpow radix2 1000) by (apply bpow_le; lia).
    destruct (div_value 53 1024 p53i e1024i s rate Vs Vr Fs) as [Fd Ed]; [lra | rewrite Es; apply small_ok, Rabs_le; lra |].
    pose proof (valid_div 53 1024 p53i e1024i s rate Vs Vr) as Vd. rewrite Es in Ed.
    assert (Q2 : 0 <= rd (rd (1 - value g) / value rate) <= bpow radix2 600).
    { split; [apply rnd_nonneg; lra |]. rewrite <- (rnd_bpow 600 ltac:(lia)). apply rd_le. lra. }
    destruct (mul_value 53 1024 p53i e1024i _ mean Vd Vm Fd Fm) as [Fp Ep].
    { rewrite Ed. apply small_ok. rewrite Rabs_pos_eq by (apply Rmult_le_pos; lra).
      replace (bpow radix2 1000) with (bpow radix2 600 * bpow radix2 400) by (rewrite <- bpow_plus; reflexivity). apply Rmult_le_compat; lra. }
    pose proof (valid_mul 53 1024 p53i e1024i _ mean Vd Vm) as Vp. rewrite Ed in Ep.
    split; [exact Vp |]. split; [apply finite_same; exact Fp |]. split; [exact Ep | exact Bs].
  Qed.

  Lemma cost_nonneg y : years y -> 0 <= real (cost_over ex mean y rate).
  Proof.
    intros Y. destruct (cost_is y Y) as (_ & _ & -> & B). pose proof rate_pos. destruct Pm as (_ & _ & Bm).
    apply rnd_nonneg, Rmult_le_pos; [| lra]. apply rnd_nonneg, Rmult_le_pos; [lra | apply Rlt_le, Rinv_0_lt_compat; lra].
  Qed.

  Lemma cost_none : real (cost_over ex mean 0 rate) = 0.
  Proof.
    assert (Y : years 0) by (split; reflexivity || lia). destruct (cost_is 0 Y) as (_ & _ & -> & _). destruct (expo_is 0 Y) as (Vt & Ft & Et & _).
    rewrite Rmult_0_r, rnd_0, Ropp_0 in Et. pose proof LE as (X & _). destruct (X _ Vt Ft) as (_ & _ & _ & _ & O); [rewrite Et, Rabs_R0; lra |].
    unfold share. rewrite (O Et), Rminus_diag_eq, rnd_0 by reflexivity. unfold Rdiv. now rewrite Rmult_0_l, rnd_0, Rmult_0_l, rnd_0.
  Qed.

  Lemma cost_rises y y' : years y -> years y' -> (y <= y')%Z -> real (cost_over ex mean y rate) <= real (cost_over ex mean y' rate).
  Proof.
    intros Y Y' L. destruct (cost_is y Y) as (_ & _ & -> & _). destruct (cost_is y' Y') as (_ & _ & -> & _). pose proof rate_pos as RP. destruct Pm as (_ & _ & Bm).
    apply rd_le, Rmult_le_compat_r; [lra |]. apply rd_le, Rmult_le_compat_r; [apply Rlt_le, Rinv_0_lt_compat; lra |]. apply rd_le.
    destruct (expo_is y Y) as (V1 & F1 & E1 & B1). destruct (expo_is y' Y') as (V2 & F2 & E2 & B2). pose proof LE as (_ & _ & M).
    assert (real (ex (expo y')) <= real (ex (expo y))); [| lra]. apply M; try assumption. split; [| exact B1]. rewrite E1, E2.
    apply Ropp_le_contravar, rd_le, Rmult_le_compat_l; [lra | now apply IZR_le].
  Qed.

  Lemma cost_right y : years y ->
    Rabs (real (cost_over ex mean y rate) - present_value (real mean) (IZR y) (real rate)) <= bpow radix2 (-48) * (real mean / real rate) + bpow radix2 (-1074).
  Proof.
    intros Y. destruct (cost_is y Y) as (_ & _ & -> & B). destruct (expo_is y Y) as (Vt & Ft & Et & Bt). pose proof rate_pos as RP. destruct Pm as (_ & _ & Bm).
    pose proof e_pos as E. pose proof e_small as Es. pose proof tau_pos as T0.
    assert (I0 : 0 <= IZR y) by (change 0 with (IZR 0); apply IZR_le; apply Y). set (u := real rate * IZR y) in *.
    assert (U : 0 <= u) by (apply Rmult_le_pos; lra). assert (eu : 0 <= e * u) by (apply Rmult_le_pos; lra).
    assert (N : Rabs (real (expo y) - - u) <= e * u + tau).
    { rewrite Et. pose proof (rnd_err u) as Er. rewrite (Rabs_pos_eq u) in Er by exact U. replace (- rd u - - u) with (- (rd u - u)) by ring. rewrite Rabs_Ropp. lra. }
    pose proof (ex_near ex (expo y) u LE Vt Ft Bt U N) as G. unfold present_value. replace (- real rate * IZR y) with (- u) by (unfold u; ring).
    pose proof LE as (_ & R & _). destruct (R _ Vt Ft Bt) as (_ & _ & Bg). unfold share in *. set (g := real (ex (expo y))) in *.
    assert (te : tau <= 1 / 1000000 * e).
    { assert (tau <= e * e) by (rewrite <- bpow_plus; apply bpow_le; lia). assert (e * e <= 1 / 1000000 * e) by (apply Rmult_le_compat_r; lra). lra. }
    set (A := 1 - exp (- u)). assert (HA : 0 <= A <= 1).
    { pose proof (exp_pos (- u)). assert (exp (- u) <= 1) by (rewrite <- exp_0; apply exp_le; lra). unfold A. lra. }
    set (c := rd (1 - g)) in *.
    assert (C : Rabs (c - A) <= 8 * e).
    { pose proof (rnd_err (1 - g)) as Er. rewrite (Rabs_pos_eq (1 - g)) in Er by lra. fold c in Er.
      assert (e / 2 * (1 - g) <= e / 2 * 1) by (apply Rmult_le_compat_l; lra).
      apply Rabs_le_inv in Er. apply Rabs_le_inv in G. unfold A. apply Rabs_le. lra. }
    set (r := real rate) in *. set (i := / r). assert (Pi : 0 < i) by (apply Rinv_0_lt_compat; lra).
    assert (ti : tau <= 1 / 1000000 * (e * i)).
    { assert (bpow radix2 (-400) <= i) by (change (-400)%Z with (- (400))%Z; rewrite bpow_opp; apply Rinv_le; lra).
      assert (tau <= bpow radix2 (-22) * (e * bpow radix2 (-400))) by (rewrite <- !bpow_plus; apply bpow_le; lia).
      assert (b22 : bpow radix2 (-22) <= 1 / 1000000) by (change (bpow radix2 (-22)) with (/ IZR 4194304); lra).
      assert (e * bpow radix2 (-400) <= e * i) by (apply Rmult_le_compat_l; lra).
      assert (0 <= e * bpow radix2 (-400)) by (apply Rmult_le_pos; [lra | apply bpow_ge_0]).
      apply Rle_trans with (bpow radix2 (-22) * (e * bpow radix2 (-400))); [assumption |]. apply Rmult_le_compat; try lra. apply bpow_ge_0. }
    change (c / r) with (c * i). change (A / r) with (A * i). change (real mean / r) with (real mean * i).
    set (m := real mean) in *.
    assert (ci : 0 <= c * i <= i) by (split; [apply Rmult_le_pos; lra | rewrite <- (Rmult_1_l i) at 2; apply Rmult_le_compat_r; lra]).
    assert (eci : e * (c * i) <= e * i) by (apply Rmult_le_compat_l; lra). assert (ei : 0 <= e * i) by (apply Rmult_le_pos; lra).
    pose proof (rnd_err (c * i)) as Ed. rewrite (Rabs_pos_eq (c * i)) in Ed by lra. set (d := rd (c * i)) in *.
    assert (D : Rabs (d - A * i) <= 9 * (e * i)).
    { assert (K : Rabs (c * i - A * i) <= 8 * (e * i)).
      { replace (c * i - A * i) with ((c - A) * i) by ring. rewrite Rabs_mult, (Rabs_pos_eq i) by lra.
        apply Rle_trans with (8 * e * i); [apply Rmult_le_compat_r; lra | right; ring]. }
      apply Rabs_le_inv in K. apply Rabs_le_inv in Ed. apply Rabs_le. lra. }
    assert (d0 : 0 <= d) by (apply rnd_nonneg; lra).
    assert (Ai : A * i <= i) by (rewrite <- (Rmult_1_l i) at 2; apply Rmult_le_compat_r; lra).
    assert (ei6 : e * i <= 1 / 1000000 * i) by (apply Rmult_le_compat_r; lra).
    assert (d1 : d <= 2 * i) by (apply Rabs_le_inv in D; lra).
    assert (mi : 0 <= e * (m * i)) by (apply Rmult_le_pos; [lra | apply Rmult_le_pos; lra]).
    assert (dm : 0 <= d * m) by (apply Rmult_le_pos; lra).
    assert (edm : e * (d * m) <= e * (2 * (m * i))).
    { apply Rmult_le_compat_l; [lra |]. apply Rle_trans with (2 * i * m); [apply Rmult_le_compat_r; lra | right; ring]. }
    pose proof (rnd_err (d * m)) as Ef. rewrite (Rabs_pos_eq (d * m)) in Ef by exact dm.
    assert (F : Rabs (d * m - A * i * m) <= 9 * (e * (m * i))).
    { replace (d * m - A * i * m) with ((d - A * i) * m) by ring. rewrite Rabs_mult, (Rabs_pos_eq m) by lra.
      apply Rle_trans with (9 * (e * i) * m); [apply Rmult_le_compat_r; lra | right; ring]. }
    assert (E48 : bpow radix2 (-48) = 16 * e) by (change (-48)%Z with (4 + -52)%Z; now rewrite bpow_plus). rewrite E48.
    apply Rabs_le_inv in Ef. apply Rabs_le_inv in F. apply Rabs_le. lra.
  Qed.

  (** A correctly rounded exponential does not notice small exponents. *)
  Lemma cost_lost y : correct_exp ex -> years y -> real rate * IZR y <= bpow radix2 (-55) -> real (cost_over ex mean y rate) = 0.
  Proof.
    intros CE Y S. destruct (cost_is y Y) as (_ & _ & -> & _). destruct (expo_is y Y) as (Vt & Ft & Et & Bt). pose proof rate_pos as RP.
    assert (I0 : 0 <= IZR y) by (change 0 with (IZR 0); apply IZR_le; apply Y). set (u := real rate * IZR y) in *.
    assert (U : 0 <= u) by (apply Rmult_le_pos; lra).
    assert (T : - bpow radix2 (-55) <= real (expo y)).
    { rewrite Et. apply Ropp_le_contravar. rewrite <- (rnd_bpow (-55) ltac:(lia)). now apply rd_le. }
    pose proof (bpow_gt_0 radix2 (-55)) as P55.
    assert (b55 : bpow radix2 (-53) = 4 * bpow radix2 (-55)) by (change (-53)%Z with (2 + -55)%Z; now rewrite bpow_plus).
    assert (l55 : bpow radix2 (-55) <= 1) by (change 1 with (bpow radix2 0); apply bpow_le; lia).
    destruct (CE _ Vt Ft) as (Vg & Fg & Ng); [rewrite Rabs_left1; lra |].
    destruct one_value as (V1 & F1 & E1). pose proof (Ng (nofZ F64 1) V1 (proj2 (finite_same _) F1)) as N. change (real (nofZ F64 1)) with (value (nofZ F64 1)) in N. rewrite E1 in N.
    pose proof LE as (_ & R & _). destruct (R _ Vt Ft Bt) as (_ & _ & Bg).
    unfold share. set (g := real (ex (expo y))) in *. pose proof (exp_ineq1_le (real (expo y))) as I.
    assert (exp (real (expo y)) <= 1) by (rewrite <- exp_0; apply exp_le; lra).
    rewrite (Rabs_pos_eq (1 - exp (real (expo y)))) in N by lra. apply Rabs_le_inv in N.
    assert (G : g = 1).
    { destruct (Rle_or_lt 1 g) as [H1 | H1]; [lra |]. exfalso.
      pose proof (pred_ge_gt radix2 (SpecFloat.fexp 53 1024) g 1 (format_of g (value_format 53 1024 _ Vg)) (format_of 1 rnd64_1) H1) as K.
      pose proof (pred_gap 1 ltac:(lra)). lra. }
    rewrite G, Rminus_diag_eq, rnd_0 by reflexivity. unfold Rdiv. now rewrite Rmult_0_l, rnd_0, Rmult_0_l, rnd_0.
  Qed.
End Cost.

(** Without discount. *)
Lemma cost_zero_rate ex mean y s : exponential ex -> amount mean -> years y -> cost_over ex mean y (S754_zero s) = S754_nan.
Proof.
  intros X (Vm & Fm & _) Y. unfold cost_over. destruct (exact_int y Y) as (Vy & Fy & Ey).
  assert (Z : exists s', nmul F64 (SFopp (S754_zero s)) (nofZ F64 y) = S754_zero s').
  { cbn [SFopp]. set (z := nofZ F64 y) in *. clearbody z. destruct z as [sz | | | sz m k]; try easy; eexists; reflexivity. }
  destruct Z as (s' & ->). destruct (X (S754_zero s') ltac:(reflexivity) I) as (Vg & Fg & _ & _ & O); [change (real (S754_zero s')) with 0; rewrite Rabs_R0; lra |].
  specialize (O eq_refl). set (g := ex (S754_zero s')) in *. destruct one_value as (V1 & F1 & E1). apply finite_same in Fg.
  change (real g) with (value g) in O.
  destruct (sub_value 53 1024 p53i e1024i _ g V1 Vg F1 Fg) as [Fs Es]; [rewrite E1, O; apply small_ok'; lra |].
  rewrite E1, O, Rminus_diag_eq, rnd_0 in Es by reflexivity.
  destruct (zero_of (SFsub 53 1024 (nofZ F64 1) g) (proj2 (finite_same _) Fs) Es) as (s2 & E2).
  change (nsub F64 (nofZ F64 1) g) with (SFsub 53 1024 (nofZ F64 1) g). rewrite E2. now destruct mean.
Qed.

Lemma rounded_correct : correct_exp rounded_exp.
Proof.
  intros x V F B. assert (E : rounded_exp x = nearest (exp (real x))) by (destruct x; try easy; discriminate F). rewrite E.
  pose proof (exp_range _ B) as R. pose proof (bpow_gt_0 radix2 (-1000)).
  destruct (nearest_value (exp (real x))) as (V1 & F1 & E1); [rewrite Rabs_pos_eq; lra |].
  split; [exact V1 |]. split; [exact F1 |]. intros z Vz Fz. rewrite E1.
  destruct (round_N_pt radix2 (SpecFloat.fexp 53 1024) (fun x => negb (Z.even x)) (exp (real x))) as [_ N].
  apply N. apply format_of. exact (value_format 53 1024 z Vz).
Qed.

(** A witness: twelve years at a rate of [2^-60]. *)
Definition slow : F64 := S754_finite false 4503599627370496 (-112).
Lemma slow_is : discount slow /\ real slow = bpow radix2 (-60).
Proof.
  assert (E : real slow = bpow radix2 (-60)).
  { unfold real, slow, SF2R, F2R. cbn [cond_Zopp Fnum Fexp]. change (IZR (Z.pos 4503599627370496)) with (bpow radix2 52). rewrite <- bpow_plus. reflexivity. }
  split; [| exact E]. split; [reflexivity |]. split; [exact I |]. rewrite E. split; apply bpow_le; lia.
Qed.

Lemma refute_years : exists ex mean y rate, rising_exp ex /\ amount mean /\ discount rate /\ years y /\
  real (cost_over ex mean y rate) = 0 /\ real mean * IZR y / 2 <= present_value (real mean) (IZR y) (real rate) /\ 0 < real mean * IZR y.
Proof.
  destruct slow_is as [D E]. destruct (small_int 1 ltac:(lia)) as [A1 E1]. exists rounded_exp, (nofZ F64 1), 12%Z, slow.
  assert (Y : years 12) by (split; reflexivity || lia).
  split; [exact rounded_rising_exp |]. split; [exact A1 |]. split; [exact D |]. split; [exact Y |]. pose proof (bpow_gt_0 radix2 (-60)) as P.
  split.
  - apply cost_lost; try assumption; [exact rounded_rising_exp | exact rounded_correct |]. rewrite E.
    apply Rle_trans with (bpow radix2 (-60) * bpow radix2 4); [apply Rmult_le_compat_l; [lra | cbn; lra] |]. rewrite <- bpow_plus. apply bpow_le. lia.
  - rewrite E1, E. split; [| lra]. unfold present_value. set (r := bpow radix2 (-60)) in *. set (u := r * 12).
    assert (Hr : r <= 1 / 1000) by (apply Rle_trans with (bpow radix2 (-10)); [apply bpow_le; lia | cbn; lra]).
    assert (Hu : 0 < u <= 12 / 1000) by (unfold u; lra). replace (- r * 12) with (- u) by (unfold u; ring).
    assert (H : u / 2 <= 1 - exp (- u)).
    { pose proof (exp_ineq1_le u) as I. pose proof (exp_pos u). rewrite exp_Ropp.
      assert (/ exp u <= / (1 + u)) by (apply Rinv_le; lra).
      assert (/ (1 + u) <= 1 - u / 2); [| lra]. apply Rmult_le_reg_r with (1 + u); [lra |]. rewrite Rinv_l by lra.
      replace ((1 - u / 2) * (1 + u)) with (1 + u / 2 * (1 - u)) by field. assert (0 <= u / 2 * (1 - u)) by (apply Rmult_le_pos; lra). lra. }
    apply Rmult_le_reg_r with r; [lra |]. replace ((1 - exp (- u)) / r * 1 * r) with (1 - exp (- u)) by (field; lra).
    replace (1 * 12 / 2 * r) with (u / 2) by (unfold u; field). exact H.
Qed.

(** Relative error: one digit less for every digit that rate times years is below one. *)
Lemma cost_digits ex mean rate y k : rising_exp ex -> amount mean -> discount rate -> years y -> (0 <= k)%Z ->
  bpow radix2 (- k) <= real rate * IZR y ->
  Rabs (real (cost_over ex mean y rate) - present_value (real mean) (IZR y) (real rate))
    <= bpow radix2 (k - 47) * present_value (real mean) (IZR y) (real rate) + bpow radix2 (-1074).
Proof.
  intros LE Pm Pr Y K U. eapply Rle_trans; [apply (cost_right ex mean rate LE Pm Pr y Y) |]. apply Rplus_le_compat_r.
  pose proof (rate_pos rate Pr) as RP. destruct Pm as (_ & _ & Bm). unfold present_value. set (r := real rate) in *. set (m := real mean) in *.
  replace (- r * IZR y) with (- (r * IZR y)) by ring. set (u := r * IZR y) in *. pose proof (bpow_gt_0 radix2 (- k)) as Pk.
  assert (k1 : bpow radix2 (- k) <= 1) by (change 1 with (bpow radix2 0); apply bpow_le; lia). set (h := bpow radix2 (- k)) in *.
  assert (H : h / 2 <= 1 - exp (- u)).
  { assert (L : exp (- u) <= exp (- h)) by (apply exp_le; lra). pose proof (exp_ineq1_le h) as I. pose proof (exp_pos h). rewrite (exp_Ropp h) in L.
    assert (/ exp h <= / (1 + h)) by (apply Rinv_le; lra).
    assert (/ (1 + h) <= 1 - h / 2); [| lra]. apply Rmult_le_reg_r with (1 + h); [lra |]. rewrite Rinv_l by lra.
    replace ((1 - h / 2) * (1 + h)) with (1 + h / 2 * (1 - h)) by field. assert (0 <= h / 2 * (1 - h)) by (apply Rmult_le_pos; lra). lra. }
  assert (S : bpow radix2 (-48) = bpow radix2 (k - 47) * (h / 2)).
  { unfold h. replace (bpow radix2 (- k) / 2) with (bpow radix2 (- k) * bpow radix2 (-1)) by (cbn [bpow]; reflexivity || (cbn; lra)).
    rewrite <- !bpow_plus. f_equal. lia. }
  rewrite S, Rmult_assoc. apply Rmult_le_compat_l; [apply bpow_ge_0 |].
  replace ((1 - exp (- u)) / r * m) with ((1 - exp (- u)) * (m / r)) by (field; lra). apply Rmult_le_compat_r; [| exact H].
  apply Rmult_le_pos; [lra | apply Rlt_le, Rinv_0_lt_compat; lra].
Qed.

Lemma cost_dearer ex mean mean' rate y : rising_exp ex -> amount mean -> amount mean' -> discount rate -> years y -> real mean <= real mean' ->
  real (cost_over ex mean y rate) <= real (cost_over ex mean' y rate).
Proof.
  intros LE Pm Pm' Pr Y L. destruct (cost_is ex mean rate LE Pm Pr y Y) as (_ & _ & -> & B). destruct (cost_is ex mean' rate LE Pm' Pr y Y) as (_ & _ & -> & _).
  pose proof (rate_pos rate Pr). apply rd_le, Rmult_le_compat_l; [| exact L]. apply rnd_nonneg, Rmult_le_pos; [lra | apply Rlt_le, Rinv_0_lt_compat; lra].
Qed.

Lemma cost_number ex mean rate y : rising_exp ex -> amount mean -> discount rate -> years y ->
  let c := cost_over ex mean y rate in double c /\ finite c /\ 0 <= real c /\ (y = 0%Z -> real c = 0).
Proof.
  intros LE Pm Pr Y c. destruct (cost_is ex mean rate LE Pm Pr y Y) as (V & F & _).
  split; [exact V |]. split; [exact F |]. split; [now apply cost_nonneg |]. unfold c. intros ->. now apply cost_none.
Qed.

Lemma cost_both ex mean mean' rate y y' : rising_exp ex -> amount mean -> amount mean' -> discount rate ->
  years y -> years y' -> real mean <= real mean' -> (y <= y')%Z -> real (cost_over ex mean y rate) <= real (cost_over ex mean' y' rate).
Proof.
  intros LE Pm Pm' Pr Y Y' L K. apply Rle_trans with (real (cost_over ex mean y' rate)); [now apply cost_rises | now apply cost_dearer].
Qed.

Lemma slow_case : discount slow /\ years 12 /\ real slow * IZR 12 <= bpow radix2 (-55).
Proof.
  destruct slow_is as [D E]. pose proof (bpow_gt_0 radix2 (-60)). split; [exact D |]. split; [split; reflexivity || lia |]. rewrite E.
  apply Rle_trans with (bpow radix2 (-60) * bpow radix2 4); [apply Rmult_le_compat_l; [lra | cbn; lra] |]. rewrite <- bpow_plus. apply bpow_le. lia.
Qed.

Lemma six_case : let six := ndiv F64 (nofZ F64 6) (nofZ F64 100) in
  discount six /\ years 50 /\ years 0 /\ amount (nofZ F64 7) /\ bpow radix2 (- 0) <= real six * IZR 50.
Proof.
  intros six. assert (E : six = S754_finite false 8646911284551352 (-57)) by reflexivity.
  assert (R : 5 / 100 <= real six <= 7 / 100).
  { rewrite E. unfold real, SF2R, F2R. cbn [cond_Zopp Fnum Fexp]. change (bpow radix2 (-57)) with (/ IZR (2 ^ 57)). cbn [Z.pow Z.pow_pos Pos.iter Z.mul Pos.mul]. lra. }
  split; [split; [now rewrite E | split; [now rewrite E |]] |].
  - split; [apply Rle_trans with (bpow radix2 (-10)); [apply bpow_le; lia | change (bpow radix2 (-10)) with (/ 1024); lra] |].
    apply Rle_trans with (bpow radix2 0); [change (bpow radix2 0) with 1; lra | apply bpow_le; lia].
  - split; [split; reflexivity || lia |]. split; [split; reflexivity || lia |]. split; [apply (small_int 7); lia |]. change (bpow radix2 (- 0)) with 1. lra.
Qed.
