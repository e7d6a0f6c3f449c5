(** * Hazard curves in double precision (C99): how right they are *)
From Coq Require Import ZArith Reals List Lra Lia Floats.SpecFloat.
From Flocq Require Import Core Relative BinarySingleNaN.
From Verif Require Import Num Double_spec Double_proofs Double_proofs2 Maq_double_proofs Deriv_proofs3 Totals Totals_spec
  Totals_proofs Totals_proofs2 Totals_proofs4 Totals_proofs6 Totals_proofs7 Spread Spread_spec Spread_proofs Spread_proofs4
  Tabled_proofs Tabled_proofs2 Hyperbola Hyperbola_spec Hyperbola_proofs.
Local Open Scope R_scope.
Local Instance p53i : Prec_gt_0 53 := eq_refl.
Local Instance e1024i : Prec_lt_emax 53 1024 := eq_refl.

Lemma ln_near a A d : 0 < A -> 0 <= d <= 1 / 100 -> Rabs (a - A) <= d * A -> Rabs (ln a - ln A) <= 102 / 100 * d.
Proof.
  intros P D H. apply Rabs_le_inv in H. assert (dA : d * A <= 1 / 100 * A) by (apply Rmult_le_compat_r; lra). assert (Pa : 0 < a) by lra.
  assert (U : ln (a / A) <= d).
  { eapply Rle_trans; [apply ln_top; apply Rmult_lt_0_compat; [lra | now apply Rinv_0_lt_compat] |].
    apply Rmult_le_reg_r with A; [exact P |]. replace ((a / A - 1) * A) with (a - A) by (field; lra). lra. }
  assert (Lo : ln (A / a) <= 102 / 100 * d).
  { eapply Rle_trans; [apply ln_top; apply Rmult_lt_0_compat; [lra | now apply Rinv_0_lt_compat] |].
    apply Rmult_le_reg_r with a; [exact Pa |]. replace ((A / a - 1) * a) with (A - a) by (field; lra).
    assert (d * (99 / 100 * A) <= d * a) by (apply Rmult_le_compat_l; lra). assert (0 <= d * A) by (apply Rmult_le_pos; lra). lra. }
  unfold Rdiv in U, Lo. rewrite ln_mult, ln_Rinv in U by (try assumption; now apply Rinv_0_lt_compat).
  rewrite ln_mult, ln_Rinv in Lo by (try assumption; now apply Rinv_0_lt_compat). apply Rabs_le. lra.
Qed.

Lemma exp_near a b m : a <= m -> b <= m -> Rabs (exp a - exp b) <= Rabs (a - b) * exp m.
Proof.
  assert (K : forall a b, b <= a -> 0 <= exp a - exp b <= (a - b) * exp a).
  { clear. intros a b H. pose proof (exp_pos a). pose proof (exp_ineq1_le (b - a)) as E.
    replace (exp b) with (exp (b - a) * exp a) by (rewrite <- exp_plus; f_equal; ring).
    assert (exp (b - a) <= 1) by (rewrite <- exp_0; destruct H as [H | ->]; [left; apply exp_increasing; lra | right; f_equal; ring]).
    assert (exp (b - a) * exp a <= 1 * exp a) by (apply Rmult_le_compat_r; lra).
    assert ((1 + (b - a)) * exp a <= exp (b - a) * exp a) by (apply Rmult_le_compat_r; lra). lra. }
  assert (M : forall a m, a <= m -> exp a <= exp m).
  { clear. intros a m [H | ->]; [left; now apply exp_increasing | right; reflexivity]. }
  intros Ha Hb. destruct (Rle_or_lt b a) as [H | H].
  - rewrite (Rabs_pos_eq (a - b)) by lra. destruct (K a b H). rewrite Rabs_pos_eq by assumption.
    eapply Rle_trans; [eassumption |]. apply Rmult_le_compat_l; [lra | now apply M].
  - rewrite (Rabs_left1 (a - b)) by lra. destruct (K b a ltac:(lra)) as [K1 K2]. rewrite Rabs_left1 by lra.
    apply Rle_trans with ((b - a) * exp b); [lra |]. replace (- (a - b)) with (b - a) by ring. apply Rmult_le_compat_l; [lra | now apply M].
Qed.

Lemma exp_le a b : a <= b -> exp a <= exp b.
Proof. intros [H | ->]; [left; now apply exp_increasing | right; reflexivity]. Qed.

(** [u e^-u] and [u^2 e^-u]. *)
Lemma exp_square u : 0 <= u -> 1 + u + u * u / 4 <= exp u.
Proof.
  intros H. replace u with (u / 2 + u / 2) at 4 by field. rewrite exp_plus. pose proof (exp_ineq1_le (u / 2)).
  apply Rle_trans with ((1 + u / 2) * (1 + u / 2)); [right; field |]. apply Rmult_le_compat; lra.
Qed.

Lemma exp_damped u : 0 <= u -> u * exp (- u) <= 1 /\ u * u * exp (- u) <= 4.
Proof.
  intros H. pose proof (exp_square u H). pose proof (exp_pos u) as P. rewrite exp_Ropp. assert (0 <= u * u) by (apply Rmult_le_pos; lra).
  split; apply Rmult_le_reg_r with (exp u); try exact P; rewrite Rmult_assoc, Rinv_l by lra; lra.
Qed.

Lemma exp_tiny r : r <= -600 -> exp r <= e * bpow radix2 (-8).
Proof.
  intros H. rewrite <- bpow_plus. apply Rle_trans with (exp (-600)); [now apply exp_le |].
  change (-52 + -8)%Z with (-60)%Z. rewrite bpow_exp. apply exp_le. pose proof ln2_top. change (IZR radix2) with 2. lra.
Qed.

Definition m600 : F64 := S754_finite true 5277655813324800 (-43).
Lemma m600_is : double m600 /\ finite m600 /\ real m600 = -600.
Proof. split; [reflexivity |]. split; [exact I |]. unfold real, m600, SF2R, F2R. cbn -[IZR]. lra. Qed.

Section Right.
  Variables (log ex : F64 -> F64) (im alpha v x : F64).
  Hypotheses (LL : rising_log log) (LE : rising_exp ex) (Pi : positive im) (Pa : amount alpha) (Pv : natural v) (Nx : natural x).
  Variable K : R.
  Hypotheses (K1 : 1 <= K <= bpow radix2 20) (A1 : 1 <= K * real alpha) (Bv : bpow radix2 (-1000) <= real v) (Bx : bpow radix2 (-1000) * real im <= real x < real im).

  Let Q := real x / real im.
  Let L := - ln Q.
  Let u := real alpha / L.

  Let f := K * e.

  Lemma f_is : 0 < e <= f /\ f <= / 1000000000 /\ e <= f * real alpha /\ 0 < real alpha.
  Proof.
    pose proof e_pos as E. assert (e <= f) by (unfold f; rewrite <- (Rmult_1_l e) at 1; apply Rmult_le_compat_r; lra).
    split; [lra |]. split; [| split].
    - apply Rle_trans with (bpow radix2 20 * e); [apply Rmult_le_compat_r; lra |]. rewrite <- bpow_plus.
      apply Rle_trans with (bpow radix2 (-30)); [apply bpow_le; lia |]. change (bpow radix2 (-30)) with (/ IZR 1073741824). apply Rinv_le; lra.
    - unfold f. replace (K * e * real alpha) with (K * real alpha * e) by ring. rewrite <- (Rmult_1_l e) at 1. apply Rmult_le_compat_r; lra.
    - destruct (Rle_or_lt (real alpha) 0) as [H0 | H0]; [| exact H0]. assert (K * real alpha <= K * 0) by (apply Rmult_le_compat_l; lra). lra.
  Qed.

  Lemma im_pos : 0 < real im.
  Proof. apply Pi. Qed.

  Lemma Q_range : bpow radix2 (-1000) <= Q < 1.
  Proof.
    pose proof im_pos as P. unfold Q. split.
    - apply Rmult_le_reg_r with (real im); [exact P |]. unfold Rdiv. rewrite Rmult_assoc, Rinv_l by lra. lra.
    - apply Rmult_lt_reg_r with (real im); [exact P |]. unfold Rdiv. rewrite Rmult_assoc, Rinv_l by lra. lra.
  Qed.

  Lemma L_pos : 0 < L.
  Proof.
    pose proof Q_range. pose proof (bpow_gt_0 radix2 (-1000)). assert (ln Q < ln 1) by (apply ln_increasing; lra). rewrite ln_1 in *. unfold L. lra.
  Qed.

  Lemma u_pos : 0 < u.
  Proof. pose proof L_pos. destruct f_is as (_ & _ & _ & AP). unfold u. apply Rmult_lt_0_compat; [exact AP | now apply Rinv_0_lt_compat]. Qed.

  Let q := q_of im x.
  Let l := - real (log q).
  Let t := t_of log im alpha x.

  Lemma q_pos : 0 < real q < 1 /\ Rabs (real q - Q) <= 51 / 100 * e * Q.
  Proof.
    destruct (q_is im Pi x Nx (proj2 Bx)) as (_ & _ & E & B). fold q in E, B. fold Q in E.
    pose proof Q_range as R. pose proof (bpow_gt_0 radix2 (-1000)) as P. pose proof e_pos. pose proof e_small.
    pose proof (rnd_err Q) as Er. rewrite (Rabs_pos_eq Q) in Er by lra. rewrite <- E in Er. pose proof (tau_width Q (proj1 R)) as T.
    assert (eQ : 0 <= e * Q) by (apply Rmult_le_pos; lra). assert (eQ1 : e * Q <= 1 / 1000000 * Q) by (apply Rmult_le_compat_r; lra).
    split; [| lra]. split; [| lra]. apply Rabs_le_inv in Er. lra.
  Qed.

  Lemma l_near : Rabs (l - L) <= e * (41 / 10 * L + 53 / 100).
  Proof.
    destruct q_pos as [B C]. destruct (q_is im Pi x Nx (proj2 Bx)) as (Vq & Fq & _ & _). fold q in Vq, Fq.
    pose proof Q_range as R. pose proof (bpow_gt_0 radix2 (-1000)) as P. pose proof e_pos as E. pose proof e_small. pose proof L_pos as LP.
    pose proof (ln_near (real q) Q (51 / 100 * e) ltac:(lra) ltac:(lra) C) as N.
    destruct LL as ((_ & AC) & _). pose proof (AC q Vq Fq (proj1 B)) as J. rewrite e50 in J.
    assert (Nq : ln (real q) < 0) by (rewrite <- ln_1; apply ln_increasing; lra). rewrite (Rabs_left (ln (real q))) in J by exact Nq.
    apply Rabs_le_inv in N. apply Rabs_le_inv in J. unfold l. unfold L in LP |- *.
    assert (M : e * - ln (real q) <= e * (- ln Q + 6 / 10 * e)) by (apply Rmult_le_compat_l; lra).
    assert (ee : e * e <= 1 / 1000000 * e) by (apply Rmult_le_compat_r; lra).
    assert (eL : 0 <= e * - ln Q) by (apply Rmult_le_pos; lra). apply Rabs_le. lra.
  Qed.

  Lemma l_pos : 0 < l.
  Proof.
    destruct q_pos as [B _]. destruct (q_is im Pi x Nx (proj2 Bx)) as (Vq & Fq & _ & _). fold q in Vq, Fq.
    destruct (l_is log LL q Vq Fq B) as (_ & _ & H). pose proof (bpow_gt_0 radix2 (-55)). unfold l. lra.
  Qed.

  Lemma t_form : double t /\ finite t /\ real t = - rd (real alpha / l).
  Proof.
    destruct (t_is log im alpha LL Pi Pa x Nx (proj2 Bx)) as (V & F & _ & _ & E). fold t in V, F, E. fold q in E.
    split; [exact V |]. split; [exact F |]. rewrite E by apply q_pos. rewrite <- rnd_opp. f_equal. unfold l.
    pose proof l_pos. unfold l in *. field. lra.
  Qed.

  (** The exponent is small, or near the right one. *)
  Lemma t_low : 700 <= u -> real t <= -600.
  Proof.
    intros U. destruct t_form as (_ & _ & ->). pose proof l_near as N. pose proof l_pos as P. pose proof L_pos as LP. pose proof e_pos as E. pose proof e_small as Es.
    apply Rabs_le_inv in N.
    assert (LA : L <= real alpha / 700).
    { unfold u in U. apply Rmult_le_reg_r with (700 / L); [apply Rmult_lt_0_compat; [lra | now apply Rinv_0_lt_compat] |].
      replace (L * (700 / L)) with 700 by (field; lra). replace (real alpha / 700 * (700 / L)) with (real alpha / L) by (field; lra). exact U. }
    assert (eL : e * L <= 1 / 1000000 * L) by (apply Rmult_le_compat_r; lra).
    destruct f_is as (_ & Ff & Fa & AP).
    assert (eA : e <= 1 / 1000000 * real alpha) by (apply Rle_trans with (f * real alpha); [exact Fa | apply Rmult_le_compat_r; lra]).
    assert (l650 : l <= real alpha / 650) by lra.
    assert (Big : 650 <= real alpha / l).
    { apply Rmult_le_reg_r with l; [exact P |]. unfold Rdiv. rewrite Rmult_assoc, Rinv_l by lra. lra. }
    assert (G : rd 650 <= rd (real alpha / l)) by (now apply rd_le).
    pose proof (rnd_err 650) as Er. rewrite (Rabs_pos_eq 650) in Er by lra. pose proof tau_small. apply Rabs_le_inv in Er. lra.
  Qed.

  Lemma t_near : u < 700 -> Rabs (real t - - u) <= f * (5 * u + 6 / 10 * (u * u)) + tau.
  Proof.
    intros U. destruct t_form as (_ & _ & ->). pose proof l_near as N. pose proof l_pos as P. pose proof L_pos as LP. pose proof e_pos as E. pose proof e_small as Es.
    pose proof u_pos as UP. pose proof tau_pos as T0.
    assert (uL : u * L = real alpha) by (unfold u; field; lra).
    destruct f_is as ((_ & Fe) & Ff & Fa & AP).
    assert (A700 : real alpha <= 700 * L) by (rewrite <- uL; apply Rmult_le_compat_r; lra).
    assert (eA : e <= / 1000000000 * real alpha) by (apply Rle_trans with (f * real alpha); [exact Fa | apply Rmult_le_compat_r; lra]).
    assert (eL : e * L <= 1 / 1000000 * L) by (apply Rmult_le_compat_r; lra).
    assert (es : e <= 1 / 1000000 * (1 / 1000)) by (apply Rle_trans with (bpow radix2 (-40)); [apply bpow_le; lia | change (bpow radix2 (-40)) with (/ IZR 1099511627776); lra]).
    apply Rabs_le_inv in N.
    assert (l2 : 999 / 1000 * L <= l) by lra.
    set (w := real alpha / l). assert (wl : w * l = real alpha) by (unfold w; field; lra).
    assert (W0 : 0 <= w) by (unfold w; apply Rmult_le_pos; [lra | apply Rlt_le, Rinv_0_lt_compat; lra]).
    assert (D : Rabs (w - u) * l <= e * (41 / 10 * real alpha + 53 / 100 * u)).
    { replace (Rabs (w - u) * l) with (Rabs (u * (L - l))).
      - rewrite Rabs_mult, (Rabs_pos_eq u) by lra.
        replace (e * (41 / 10 * real alpha + 53 / 100 * u)) with (u * (e * (41 / 10 * L + 53 / 100))) by (rewrite <- uL; ring).
        apply Rmult_le_compat_l; [lra |]. apply Rabs_le. lra.
      - rewrite <- (Rabs_pos_eq l) at 2 by lra. rewrite <- Rabs_mult. f_equal. rewrite Rmult_minus_distr_r, Rmult_minus_distr_l, wl, uL. ring. }
    assert (D2 : Rabs (w - u) <= 101 / 100 * (f * (41 / 10 * u + 53 / 100 * (u * u)))).
    { apply Rmult_le_reg_r with (999 / 1000 * L); [lra |].
      apply Rle_trans with (Rabs (w - u) * l); [apply Rmult_le_compat_l; [apply Rabs_pos | exact l2] |].
      eapply Rle_trans; [exact D |].
      apply Rle_trans with (f * (41 / 10 * (u * L) + 53 / 100 * (u * (u * L)))).
      - rewrite uL. assert (e * real alpha <= f * real alpha) by (apply Rmult_le_compat_r; lra).
        assert (u * e <= u * (f * real alpha)) by (apply Rmult_le_compat_l; lra). lra.
      - replace (101 / 100 * (f * (41 / 10 * u + 53 / 100 * (u * u))) * (999 / 1000 * L))
          with ((101 / 100 * (999 / 1000)) * (f * (41 / 10 * (u * L) + 53 / 100 * (u * (u * L))))) by ring.
        rewrite <- (Rmult_1_l (f * _)) at 1. apply Rmult_le_compat_r; [| lra]. apply Rmult_le_pos; [lra |].
        assert (0 <= u * (u * L)) by (apply Rmult_le_pos; lra). lra. }
    pose proof (rnd_err w) as Er. rewrite (Rabs_pos_eq w) in Er by exact W0.
    apply Rabs_le_inv in D2. apply Rabs_le_inv in Er.
    assert (uu : 0 <= u * u) by (apply Rmult_le_pos; lra). assert (eu : 0 <= f * u) by (apply Rmult_le_pos; lra).
    assert (euu : 0 <= f * (u * u)) by (apply Rmult_le_pos; lra).
    assert (small : f * (u * u) <= 1 / 1000 * u).
    { replace (f * (u * u)) with ((f * u) * u) by ring. apply Rmult_le_compat_r; [lra |].
      apply Rle_trans with (/ 1000000000 * 700); [apply Rmult_le_compat; lra | lra]. }
    assert (w2 : w <= 11 / 10 * u).
    { assert (f * u <= 1 / 1000000 * u) by (apply Rmult_le_compat_r; lra). lra. }
    assert (e * w <= f * (11 / 10 * u)) by (apply Rmult_le_compat; lra).
    apply Rabs_le. lra.
  Qed.

  Lemma g_near : Rabs (real (ex t) - exp (- u)) <= 14 * f.
  Proof.
    destruct t_form as (Vt & Ft & Et). pose proof e_pos as E. pose proof e_small as Es. pose proof u_pos as UP.
    destruct (t_is log im alpha LL Pi Pa x Nx (proj2 Bx)) as (_ & _ & Tn & _). fold t in Tn. pose proof tau_pos as T0.
    destruct f_is as ((_ & Fe) & Ff & _ & _).
    destruct LE as (X & R & M). destruct (R t Vt Ft Tn) as (_ & _ & Bg).
    assert (b8 : bpow radix2 (-8) = 1 / 256) by (cbn; lra).
    destruct (Rle_or_lt 700 u) as [U | U].
    - pose proof (t_low U) as TL. destruct m600_is as (V6 & F6 & E6).
      pose proof (M t m600 Vt Ft V6 F6 ltac:(rewrite E6; lra)) as Mo.
      destruct (X m600 V6 F6) as (_ & _ & A & _); [rewrite E6, Rabs_left1; lra |]. rewrite E6 in A. rewrite e50 in A.
      pose proof (exp_tiny (-600) ltac:(lra)) as T6. pose proof (exp_tiny (- u) ltac:(lra)) as Tu. rewrite b8 in T6, Tu.
      pose proof (exp_pos (-600)). pose proof (exp_pos (- u)). apply Rabs_le_inv in A.
      assert (e * exp (-600) <= e * 1) by (apply Rmult_le_compat_l; lra). apply Rabs_le. lra.
    - pose proof (t_near U) as N. destruct (exp_damped u ltac:(lra)) as [D1 D2].
      assert (es : e <= 1 / 1000000 * (1 / 1000000)) by (apply Rle_trans with (bpow radix2 (-40)); [apply bpow_le; lia | change (bpow radix2 (-40)) with (/ IZR 1099511627776); lra]).
      assert (te : tau <= e * e) by (rewrite <- bpow_plus; apply bpow_le; lia).
      assert (ee : e * e <= 1 / 1000000 * e) by (apply Rmult_le_compat_r; lra).
      assert (uu : u * u <= 700 * 700) by (apply Rmult_le_compat; lra).
      assert (S1 : f * (5 * u + 6 / 10 * (u * u)) <= 3 / 10000).
      { apply Rle_trans with (/ 1000000000 * 300000); [apply Rmult_le_compat; try lra; assert (0 <= u * u) by (apply Rmult_le_pos; lra); lra | lra]. }
      set (d := f * (5 * u + 6 / 10 * (u * u)) + tau) in *. assert (Hd : d <= 4 / 10000) by (unfold d; lra). pose proof N as N'. apply Rabs_le_inv in N'.
      assert (Bt : Rabs (real t) <= 710) by (apply Rabs_le; lra).
      assert (MV : Rabs (exp (real t) - exp (- u)) <= d * exp (- u + d)).
      { eapply Rle_trans; [apply (exp_near (real t) (- u) (- u + d)); lra |]. apply Rmult_le_compat_r; [left; apply exp_pos | exact N]. }
      assert (Ed : exp (- u + d) <= 101 / 100 * exp (- u)).
      { rewrite exp_plus, Rmult_comm. apply Rmult_le_compat_r; [left; apply exp_pos |].
        pose proof (exp_ineq1_le (- d)) as I. rewrite exp_Ropp in I. pose proof (exp_pos d) as Pd.
        assert (exp d * (1 + - d) <= 1) by (apply Rle_trans with (exp d * / exp d); [apply Rmult_le_compat_l; lra | rewrite Rinv_r; lra]).
        assert (exp d * (999 / 1000) <= exp d * (1 + - d)) by (apply Rmult_le_compat_l; lra). lra. }
      assert (d0 : 0 <= d) by lra.
      pose proof (exp_pos (- u)) as Pu. assert (eu1 : exp (- u) <= 1) by (rewrite <- exp_0; apply exp_le; lra).
      assert (MV2 : Rabs (exp (real t) - exp (- u)) <= 8 * f).
      { eapply Rle_trans; [exact MV |]. apply Rle_trans with (d * (101 / 100 * exp (- u))); [apply Rmult_le_compat_l; lra |].
        unfold d. replace ((f * (5 * u + 6 / 10 * (u * u)) + tau) * (101 / 100 * exp (- u)))
          with (101 / 100 * (f * (5 * (u * exp (- u)) + 6 / 10 * (u * u * exp (- u))) + tau * exp (- u))) by ring.
        assert (f * (5 * (u * exp (- u)) + 6 / 10 * (u * u * exp (- u))) <= f * (5 + 24 / 10)) by (apply Rmult_le_compat_l; lra).
        assert (tau * exp (- u) <= tau * 1) by (apply Rmult_le_compat_l; lra). lra. }
      destruct (Rle_or_lt (-600) (real t)) as [T6 | T6].
      + destruct (X t Vt Ft) as (_ & _ & A & _); [rewrite Rabs_left1; lra |]. rewrite e50 in A.
        assert (exp (real t) <= 1) by (rewrite <- exp_0; apply exp_le; lra). pose proof (exp_pos (real t)).
        assert (e * exp (real t) <= e * 1) by (apply Rmult_le_compat_l; lra).
        apply Rabs_le_inv in A. apply Rabs_le_inv in MV2. apply Rabs_le. lra.
      + destruct m600_is as (V6 & F6 & E6).
        pose proof (M t m600 Vt Ft V6 F6 ltac:(rewrite E6; lra)) as Mo.
        destruct (X m600 V6 F6) as (_ & _ & A & _); [rewrite E6, Rabs_left1; lra |]. rewrite E6 in A. rewrite e50 in A.
        pose proof (exp_tiny (-600) ltac:(lra)) as T6'. pose proof (exp_tiny (real t) ltac:(lra)) as Tt. rewrite b8 in T6', Tt.
        pose proof (exp_pos (-600)). pose proof (exp_pos (real t)). apply Rabs_le_inv in A. apply Rabs_le_inv in MV2.
        assert (e * exp (-600) <= e * 1) by (apply Rmult_le_compat_l; lra). apply Rabs_le. lra.
  Qed.

  Lemma h_right : Rabs (real (hyperbola log ex v im alpha x) - real v * exp (real alpha / ln (real x / real im))) <= bpow radix2 (-48) * real v * K.
  Proof.
    destruct (h_low log ex im alpha LL LE Pi Pa v Pv x Nx (proj2 Bx)) as (_ & _ & -> & _). fold t.
    replace (real alpha / ln (real x / real im)) with (- u) by (pose proof L_pos; unfold u, L, Q in *; field; lra).
    pose proof g_near as G. pose proof e_pos as E. pose proof (bpow_gt_0 radix2 (-1000)) as P. pose proof (tau_width _ Bv) as T.
    destruct (t_is log im alpha LL Pi Pa x Nx (proj2 Bx)) as (Vt & Ft & Tn & _). fold t in Vt, Ft, Tn.
    destruct LE as (_ & R & _). destruct (R t Vt Ft Tn) as (_ & _ & Bg). set (g := real (ex t)) in *.
    assert (M0 : 0 <= real v * g) by (apply Rmult_le_pos; lra).
    pose proof (rnd_err (real v * g)) as Er. rewrite (Rabs_pos_eq (real v * g)) in Er by exact M0.
    assert (E48 : bpow radix2 (-48) = 16 * e) by (change (-48)%Z with (4 + -52)%Z; now rewrite bpow_plus). rewrite E48.
    assert (vg : real v * g <= real v * 1) by (apply Rmult_le_compat_l; lra).
    assert (J : Rabs (real v * g - real v * exp (- u)) <= 14 * (f * real v)).
    { replace (real v * g - real v * exp (- u)) with (real v * (g - exp (- u))) by ring. rewrite Rabs_mult, (Rabs_pos_eq (real v)) by lra.
      apply Rle_trans with (real v * (14 * f)); [apply Rmult_le_compat_l; lra | right; ring]. }
    assert (e / 2 * (real v * g) <= e / 2 * real v) by (apply Rmult_le_compat_l; lra).
    assert (fv : e * real v <= f * real v) by (destruct f_is as ((_ & Fe) & _); apply Rmult_le_compat_r; lra).
    replace (16 * e * real v * K) with (16 * (f * real v)) by (unfold f; ring).
    assert (0 <= e * real v) by (apply Rmult_le_pos; lra).
    apply Rabs_le_inv in Er. apply Rabs_le_inv in J. apply Rabs_le. lra.
  Qed.
End Right.
