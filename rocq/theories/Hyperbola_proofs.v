(** * Hazard curves in double precision (C99) *)
From Coq Require Import ZArith Reals List Lra Lia Floats.SpecFloat.
From Flocq Require Import Core Relative BinarySingleNaN.
From Verif Require Import Num Double_spec Double_proofs Double_proofs2 Maq_double_proofs Deriv_proofs3 Totals Totals_spec
  Totals_proofs Totals_proofs2 Totals_proofs4 Totals_proofs6 Totals_proofs7 Spread Spread_spec Spread_proofs Spread_proofs4
  Tabled_proofs Tabled_proofs2 Hyperbola Hyperbola_spec.
Local Open Scope R_scope.
Local Instance p53i : Prec_gt_0 53 := eq_refl.
Local Instance e1024i : Prec_lt_emax 53 1024 := eq_refl.
Local Instance fx : Valid_exp (SpecFloat.fexp 53 1024) := fexp_correct 53 1024 p53i.

Notation fe := (SpecFloat.fexp 53 1024).

Lemma format_of r : rd r = r -> generic_format radix2 fe r.
Proof. intros <-. apply generic_format_round; [exact fx | apply valid_rnd_N]. Qed.

Lemma fe_low k : (k - 53 <= fe k)%Z.
Proof. unfold SpecFloat.fexp. lia. Qed.

(** The next double below is smaller by a [2^-53]th part, at least. *)
Lemma pred_gap y : 0 < y -> pred radix2 fe y <= y - bpow radix2 (-53) * y.
Proof.
  intros P. rewrite pred_eq_pos by lra. unfold pred_pos. pose proof (bpow_gt_0 radix2 (-53)).
  destruct (Req_bool_spec y (bpow radix2 (mag radix2 y - 1))) as [E | N].
  - apply Rplus_le_compat_l, Ropp_le_contravar. rewrite E at 1. rewrite <- bpow_plus. apply bpow_le. pose proof (fe_low (mag radix2 y - 1)). lia.
  - apply Rplus_le_compat_l, Ropp_le_contravar. rewrite ulp_neq_0 by lra. unfold cexp.
    pose proof (bpow_mag_gt radix2 y) as M. rewrite Rabs_pos_eq in M by lra.
    apply Rle_trans with (bpow radix2 (-53) * bpow radix2 (mag radix2 y)); [apply Rmult_le_compat_l; lra |].
    rewrite <- bpow_plus. apply bpow_le. pose proof (fe_low (mag radix2 y)). lia.
Qed.

Lemma below_one x y : rd x = x -> rd y = y -> 0 <= x < y -> 0 <= rd (x / y) <= 1 - bpow radix2 (-53).
Proof.
  intros Fx Fy H. assert (P : 0 < / y) by (apply Rinv_0_lt_compat; lra).
  split; [apply rnd_nonneg, Rmult_le_pos; lra |].
  assert (O : rd (1 - bpow radix2 (-53)) = 1 - bpow radix2 (-53)).
  { apply round_generic; [apply valid_rnd_N |]. pose proof (pred_bpow radix2 fe 0) as E. change (bpow radix2 0) with 1 in E.
    change (fe 0) with (-53)%Z in E. rewrite <- E. apply generic_format_pred; [exact fx |].
    apply format_of. exact (rnd_bpow 0 ltac:(lia)). }
  rewrite <- O. apply rd_le. apply Rmult_le_reg_r with y; [lra |]. unfold Rdiv. rewrite Rmult_assoc, Rinv_l by lra.
  pose proof (pred_ge_gt radix2 fe x y (format_of x Fx) (format_of y Fy) (proj2 H)). pose proof (pred_gap y ltac:(lra)). lra.
Qed.

Lemma zero_of q : finite q -> real q = 0 -> exists s, q = S754_zero s.
Proof.
  intros F H. destruct q as [s | | | s m k]; try easy; [now exists s |]. exfalso. unfold real, SF2R in H.
  apply eq_0_F2R in H. destruct s; discriminate.
Qed.

Section Curve.
  Variables (log ex : F64 -> F64) (im alpha : F64).
  Hypotheses (LL : rising_log log) (LE : rising_exp ex) (Pi : positive im) (Pa : amount alpha).

  Definition q_of (x : F64) : F64 := ndiv F64 x im.
  Definition t_of (x : F64) : F64 := ndiv F64 alpha (log (q_of x)).

  Lemma q_is x : natural x -> real x < real im ->
    double (q_of x) /\ finite (q_of x) /\ real (q_of x) = rd (real x / real im) /\ 0 <= real (q_of x) < 1.
  Proof.
    intros (V & F & N) L. destruct Pi as (Vi & Fi & Gi). apply finite_same in F, Fi.
    change (real x) with (value x) in *. change (real im) with (value im) in *.
    pose proof (below_one (value x) (value im) (value_format 53 1024 x V) (value_format 53 1024 im Vi) (conj N L)) as B.
    pose proof (bpow_gt_0 radix2 (-53)).
    destruct (div_value 53 1024 p53i e1024i x im V Vi F) as [Fq Eq]; [lra | |].
    { rewrite Rabs_pos_eq by lra. apply Rle_lt_trans with 1; [lra |]. change 1 with (bpow radix2 0). apply bpow_lt. lia. }
    pose proof (valid_div 53 1024 p53i e1024i x im V Vi) as Vq.
    split; [exact Vq |]. split; [apply finite_same; exact Fq |]. split; [exact Eq |].
    change (real (q_of x)) with (value (SFdiv 53 1024 x im)). rewrite Eq. lra.
  Qed.

  (** The logarithm of a part. *)
  Lemma l_is q : double q -> finite q -> 0 < real q < 1 ->
    double (log q) /\ finite (log q) /\ -1000 <= real (log q) <= - bpow radix2 (-55).
  Proof.
    intros V F B. destruct LL as ((LG & AC) & _). destruct (LG q V F (proj1 B)) as (V1 & F1 & B1 & _).
    split; [exact V1 |]. split; [exact F1 |]. apply Rabs_le_inv in B1. split; [lra |].
    pose proof (ln_apart q V F (proj1 B) ltac:(lra)) as A. pose proof (AC q V F (proj1 B)) as C.
    assert (N : ln (real q) < 0) by (rewrite <- ln_1; apply ln_increasing; lra).
    rewrite (Rabs_left (ln (real q))) in A, C by lra. apply Rabs_le_inv in C.
    assert (bpow radix2 (-50) <= 1 / 4) by (apply Rle_trans with (bpow radix2 (-2)); [apply bpow_le; lia | cbn; lra]).
    assert (bpow radix2 (-50) * - ln (real q) <= 1 / 4 * - ln (real q)) by (apply Rmult_le_compat_r; lra).
    assert (E : bpow radix2 (-54) = 2 * bpow radix2 (-55)) by (change (-54)%Z with (1 + -55)%Z; now rewrite bpow_plus). lra.
  Qed.

  Lemma t_is x : natural x -> real x < real im ->
    double (t_of x) /\ finite (t_of x) /\ real (t_of x) <= 0 /\ (real (q_of x) = 0 -> real (t_of x) = 0) /\
    (0 < real (q_of x) -> real (t_of x) = rd (real alpha / real (log (q_of x)))).
  Proof.
    intros N L. destruct (q_is x N L) as (Vq & Fq & Eq & Bq). destruct Pa as (Va & Fa & Ba). unfold t_of.
    destruct (Req_dec (real (q_of x)) 0) as [Z | Z].
    - destruct (zero_of _ Fq Z) as (s & E). destruct LL as (_ & LZ & _). rewrite E, LZ.
      assert (R : exists s', ndiv F64 alpha (S754_infinity true) = S754_zero s').
      { destruct alpha as [sa | | | sa m k]; try easy; eexists; reflexivity. }
      destruct R as (s' & R). rewrite R. split; [reflexivity |]. split; [exact I |]. split; [change (real (S754_zero s')) with 0; lra |].
      split; [reflexivity |]. change (real (S754_zero s)) with 0. lra.
    - destruct (l_is (q_of x) Vq Fq ltac:(lra)) as (Vl & Fl & Bl). set (l := log (q_of x)) in *. apply finite_same in Fa.
      pose proof (bpow_gt_0 radix2 (-55)) as P55. change (real alpha) with (value alpha) in *. change (real l) with (value l) in *.
      assert (Q : - bpow radix2 455 <= value alpha / value l <= 0).
      { assert (I : 0 < / - value l <= bpow radix2 55).
        { split; [apply Rinv_0_lt_compat; lra |]. replace (bpow radix2 55) with (/ bpow radix2 (-55)) by (rewrite <- bpow_opp; reflexivity).
          apply Rinv_le; lra. }
        replace (value alpha / value l) with (- (value alpha * / - value l)) by (field; lra).
        assert (0 <= value alpha * / - value l) by (apply Rmult_le_pos; lra).
        assert (value alpha * / - value l <= bpow radix2 400 * bpow radix2 55) by (apply Rmult_le_compat; lra).
        rewrite <- bpow_plus in H0. change (400 + 55)%Z with 455%Z in H0. lra. }
      assert (bpow radix2 455 <= bpow radix2 1000) by (apply bpow_le; lia).
      destruct (div_value 53 1024 p53i e1024i alpha l Va Vl Fa) as [Ft Et]; [lra | apply small_ok, Rabs_le; lra |].
      pose proof (valid_div 53 1024 p53i e1024i alpha l Va Vl) as Vt.
      split; [exact Vt |]. split; [apply finite_same; exact Ft |]. change (real (ndiv F64 alpha l)) with (value (SFdiv 53 1024 alpha l)). rewrite Et.
      split; [rewrite <- (rnd_0 53 1024); apply rd_le; lra |]. split; [lra | reflexivity].
  Qed.

  Lemma t_falls x x' : natural x -> natural x' -> real x <= real x' -> real x' < real im -> real (t_of x') <= real (t_of x).
  Proof.
    intros N N' L L'. destruct (t_is x N ltac:(lra)) as (_ & _ & B & Z & P). destruct (t_is x' N' L') as (_ & _ & B' & Z' & P').
    destruct (q_is x N ltac:(lra)) as (Vq & Fq & Eq & Bq). destruct (q_is x' N' L') as (Vq' & Fq' & Eq' & Bq').
    destruct Pi as (_ & _ & Gi).
    assert (Q : real (q_of x) <= real (q_of x')).
    { rewrite Eq, Eq'. apply rd_le. apply Rmult_le_compat_r; [apply Rlt_le, Rinv_0_lt_compat; lra | exact L]. }
    destruct (Req_dec (real (q_of x)) 0) as [E | E]; [rewrite (Z E); exact B' |].
    rewrite P, P' by lra. apply rd_le. destruct LL as (_ & _ & M). pose proof (M _ _ Vq Fq Vq' Fq' ltac:(lra)) as M1.
    destruct (l_is _ Vq Fq ltac:(lra)) as (_ & _ & B1). destruct (l_is _ Vq' Fq' ltac:(lra)) as (_ & _ & B2).
    pose proof (bpow_gt_0 radix2 (-55)). set (l := real (log (q_of x))) in *. set (l' := real (log (q_of x'))) in *. destruct Pa as (_ & _ & Ba).
    replace (real alpha / l') with (- (real alpha * / - l')) by (field; lra). replace (real alpha / l) with (- (real alpha * / - l)) by (field; lra).
    apply Ropp_le_contravar, Rmult_le_compat_l; [lra |]. apply Rinv_le; lra.
  Qed.

  Variable v : F64.
  Hypothesis Pv : natural v.
  Notation h := (hyperbola log ex v im alpha).

  Lemma h_high x : double x -> finite x -> real im <= real x -> h x = nofZ F64 0.
  Proof.
    intros V F L. destruct Pi as (Vi & Fi & _). unfold hyperbola. now rewrite (proj2 (leb_real im x Vi V Fi F) L).
  Qed.

  Lemma h_low x : natural x -> real x < real im ->
    double (h x) /\ finite (h x) /\ real (h x) = rd (real v * real (ex (t_of x))) /\ 0 <= real (h x) <= real v.
  Proof.
    intros N L. destruct (t_is x N L) as (Vt & Ft & Bt & _). destruct N as (V & F & N). destruct Pi as (Vi & Fi & _).
    unfold hyperbola. rewrite (proj2 (leb_real_false im x Vi V Fi F) L).
    destruct LE as (_ & R & _). destruct (R _ Vt Ft Bt) as (Ve & Fe & Be). fold (q_of x). fold (t_of x). set (g := ex (t_of x)) in *.
    destruct Pv as (Vv & Fv & Gv). apply finite_same in Fv, Fe. change (real v) with (value v) in *. change (real g) with (value g) in *.
    assert (M : 0 <= value v * value g <= value v).
    { split; [apply Rmult_le_pos; lra |]. apply Rle_trans with (value v * 1); [apply Rmult_le_compat_l; lra | lra]. }
    assert (B : 0 <= rd (value v * value g) <= value v).
    { split; [apply rnd_nonneg; lra |]. rewrite <- (value_format 53 1024 v Vv) at 2. apply rd_le. lra. }
    assert (Bv : value v < bpow radix2 1024).
    { destruct (lift 53 1024 v Vv) as [b ->]. rewrite value_B. pose proof (abs_B2R_lt_emax 53 1024 b) as T. rewrite value_B in Gv.
      rewrite Rabs_pos_eq in T; assumption. }
    destruct (mul_value 53 1024 p53i e1024i v g Vv Ve Fv Fe) as [Fm Em]; [rewrite Rabs_pos_eq; lra |].
    pose proof (valid_mul 53 1024 p53i e1024i v g Vv Ve) as Vm.
    split; [exact Vm |]. split; [apply finite_same; exact Fm |]. change (real (nmul F64 v g)) with (value (SFmul 53 1024 v g)). rewrite Em.
    split; [reflexivity | exact B].
  Qed.

  Lemma h_number x : natural x -> double (h x) /\ finite (h x) /\ 0 <= real (h x) <= real v.
  Proof.
    intros N. destruct (Rlt_or_le (real x) (real im)) as [L | L].
    - destruct (h_low x N L) as (A & B & _ & C). auto.
    - destruct N as (V & F & _). rewrite (h_high x V F L). split; [reflexivity |]. split; [exact I |]. change (real (nofZ F64 0)) with 0.
      destruct Pv as (_ & _ & G). lra.
  Qed.

  Lemma h_zero x : natural x -> real x = 0 -> real (h x) = real v.
  Proof.
    intros N Z. destruct Pi as (_ & _ & Gi). assert (L : real x < real im) by lra. destruct (h_low x N L) as (_ & _ & -> & _).
    destruct (t_is x N L) as (Vt & Ft & Bt & T0 & _). destruct (q_is x N L) as (_ & _ & Eq & _).
    assert (T : real (t_of x) = 0). { apply T0. rewrite Eq, Z. unfold Rdiv. now rewrite Rmult_0_l, rnd_0. }
    destruct LE as (X & _). destruct (X _ Vt Ft) as (_ & _ & _ & _ & O); [rewrite T, Rabs_R0; lra |]. rewrite (O T), Rmult_1_r.
    destruct Pv as (Vv & _). exact (value_format 53 1024 v Vv).
  Qed.

  Lemma h_falls x x' : natural x -> natural x' -> real x <= real x' -> real (h x') <= real (h x).
  Proof.
    intros N N' L. destruct (Rlt_or_le (real x') (real im)) as [L' | L'].
    - destruct (h_low x N ltac:(lra)) as (_ & _ & -> & _). destruct (h_low x' N' L') as (_ & _ & -> & _).
      apply rd_le, Rmult_le_compat_l; [apply Pv |]. destruct (t_is x N ltac:(lra)) as (V1 & F1 & B1 & _). destruct (t_is x' N' L') as (V2 & F2 & B2 & _).
      destruct LE as (_ & _ & M). apply M; try assumption. split; [now apply t_falls | exact B1].
    - destruct N' as (V & F & _). rewrite (h_high x' V F L'). change (real (nofZ F64 0)) with 0. apply (h_number x N).
  Qed.
End Curve.
