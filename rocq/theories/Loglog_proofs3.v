(** * Log-log tables in double precision (C101): values, and tables that are refused *)
From Coq Require Import ZArith Reals List Bool Lra Lia Floats.SpecFloat.
From Flocq Require Import Core Relative BinarySingleNaN.
From Verif Require Import Num Double_spec Double_proofs Double_proofs2 Maq_double_proofs Deriv_proofs3 Totals Totals_spec
  Totals_proofs Totals_proofs2 Totals_proofs4 Totals_proofs6 Totals_proofs7 Spread Spread_spec Spread_proofs Spread_proofs4
  Tabled Tabled_spec Tabled_proofs Tabled_proofs2 Hyperbola_spec Hyperbola_proofs Hyperbola_proofs2 Hyperbola_proofs3 Loglog Loglog_spec Loglog_proofs Loglog_proofs2.
Import ListNotations.
Local Open Scope R_scope.
Local Instance p53i : Prec_gt_0 53 := eq_refl.
Local Instance e1024i : Prec_lt_emax 53 1024 := eq_refl.
Local Instance fx : Valid_exp (SpecFloat.fexp 53 1024) := fexp_correct 53 1024 p53i.

Lemma mid_range q a b : 0 <= q <= 1 -> Rmin a b <= a + q * (b - a) <= Rmax a b.
Proof.
  intros Q. replace (a + q * (b - a)) with ((1 - q) * a + q * b) by ring. pose proof (Rmin_l a b). pose proof (Rmin_r a b). pose proof (Rmax_l a b). pose proof (Rmax_r a b).
  set (m := Rmin a b) in *. set (M := Rmax a b) in *.
  assert ((1 - q) * m <= (1 - q) * a) by (apply Rmult_le_compat_l; lra). assert (q * m <= q * b) by (apply Rmult_le_compat_l; lra).
  assert ((1 - q) * a <= (1 - q) * M) by (apply Rmult_le_compat_l; lra). assert (q * b <= q * M) by (apply Rmult_le_compat_l; lra). lra.
Qed.

Section Table.
  Variables (log ex : F64 -> F64) (xs ys : list F64).
  Hypotheses (LL : rising_log log) (LE : exponential ex) (PL : plotted xs ys) (ST : steps log xs).
  Let n := List.length xs.
  Let lx := map log xs.
  Let ly := map log ys.

  Section At.
    Variables (x : F64) (cache : nat).
    Hypotheses (V : double x) (F : finite x) (C : (S cache < n)%nat).

    Lemma find_interval : real (at_ xs 0) <= real x <= real (at_ xs (n - 1)) ->
      exists i, (S i < n)%nat /\ real (at_ xs i) <= real x <= real (at_ xs (S i)).
    Proof.
      intros [B0 B1]. pose proof (len xs ys PL) as L. fold n in L.
      assert (K : forall m, (m < n)%nat -> (1 <= m)%nat -> real x <= real (at_ xs m) -> exists i, (S i < n)%nat /\ real (at_ xs i) <= real x <= real (at_ xs (S i))).
      { induction m as [| m IH]; intros Hm H1 Hx; [lia |]. destruct (Rle_or_lt (real (at_ xs m)) (real x)) as [G | G]; [exists m; auto |].
        destruct m as [| m]; [lra |]. apply IH; [lia | lia | lra]. }
      apply (K (n - 1)%nat); [lia | lia | exact B1].
    Qed.

    (** What a call does. *)
    Lemma called : exists y c, loglog_at log ex xs ys lx ly x cache = Some (y, c) /\ (S c < n)%nat /\
      ((real x < real (at_ xs 0) /\ y = at_ ys 0) \/ (real (at_ xs (n - 1)) < real x /\ y = at_ ys (n - 1)) \/
       (real (at_ xs 0) <= real x <= real (at_ xs (n - 1)) /\ exists s, spline_eval lx ly (log x) cache = Some (s, c) /\ y = ex s)).
    Proof.
      pose proof (len xs ys PL) as L. fold n in L. destruct (ord_x xs ys PL 0 ltac:(fold n; lia)) as (V0 & F0 & _). destruct (ord_x xs ys PL (n - 1) ltac:(fold n; lia)) as (V1 & F1 & _).
      unfold loglog_at. fold n. destruct (nltb F64 x (at_ xs 0)) eqn:T.
      { apply ltb_real in T; try assumption. do 2 eexists. split; [reflexivity |]. auto. }
      apply ltb_real_false in T; try assumption. destruct (nltb F64 (at_ xs (n - 1)) x) eqn:U.
      { apply ltb_real in U; try assumption. do 2 eexists. split; [reflexivity |]. auto. }
      apply ltb_real_false in U; try assumption. destruct (find_interval (conj T U)) as (i & Hi & Xi).
      destruct (spline_near log xs ys LL PL ST x V F (conj T U) cache i C Hi Xi) as (s & j & E & J & _). fold lx in E. fold ly in E. rewrite E.
      do 2 eexists. split; [reflexivity |]. split; [exact J |]. right. right. split; [split; assumption |]. eauto.
    Qed.

    Variables (y : F64) (c : nat).
    Hypothesis E : loglog_at log ex xs ys lx ly x cache = Some (y, c).

    Lemma in_interval i : (S i < n)%nat -> real (at_ xs i) <= real x <= real (at_ xs (S i)) ->
      let q := (real (log x) - real (at_ lx i)) / (real (at_ lx (S i)) - real (at_ lx i)) in
      0 <= q <= 1 /\ ordinary x /\ double y /\ finite y /\ 0 < real y /\
      Rabs (ln (real y) - (real (at_ ly i) + q * (real (at_ ly (S i)) - real (at_ ly i)))) <= 4205 * e.
    Proof.
      intros H X q. assert (B : real (at_ xs 0) <= real x <= real (at_ xs (n - 1))).
      { pose proof (order xs ys PL 0 i ltac:(lia) ltac:(fold n; lia)). pose proof (order xs ys PL (S i) (n - 1) ltac:(lia) ltac:(fold n; lia)). lra. }
      destruct called as (y' & c' & E' & _ & D). rewrite E in E'. injection E' as <- <-.
      destruct D as [[D _] | [[D _] | (_ & s & Es & ->)]]; [lra | lra |].
      destruct (spline_near log xs ys LL PL ST x V F B cache i C H X) as (s' & j & Es' & _ & Vs & Fs & Bs & Ns). fold lx in Es', Ns. fold ly in Es', Ns.
      rewrite Es in Es'. injection Es' as <- <-. fold q in Ns. destruct (exp_logged ex s LE Vs Fs Bs) as (Ve & Fe & Pe & Ne).
      pose proof (log_inside log xs ys LL PL x V F i ltac:(fold n; lia) (proj1 X)) as Q0. fold lx in Q0.
      pose proof (log_inside' log xs ys LL PL x V F B (S i) H (proj2 X)) as Q1. fold lx in Q1.
      pose proof (log_step log xs ST i H) as St. fold lx in St. pose proof e_pos.
      split.
      { unfold q. split; [apply Rmult_le_pos; [lra | apply Rlt_le, Rinv_0_lt_compat; lra] |].
        apply Rmult_le_reg_r with (real (at_ lx (S i)) - real (at_ lx i)); [lra |]. unfold Rdiv. rewrite Rmult_assoc, Rinv_l by lra. lra. }
      split; [exact (x_ordinary xs ys PL x V F B) |]. split; [exact Ve |]. split; [exact Fe |]. split; [exact Pe |].
      apply Rabs_le_inv in Ns. apply Rabs_le_inv in Ne. apply Rabs_le. lra.
    Qed.

    Lemma ly_near i : (i < n)%nat -> Rabs (real (at_ ly i) - ln (real (at_ ys i))) <= 1440 * e /\ 0 < real (at_ ys i) /\ Rabs (ln (real (at_ ys i))) <= 360.
    Proof. intros H. unfold ly. rewrite (ly_at log xs ys PL i H). apply log_ordinary; [exact LL | exact (ord_y xs ys PL i H)]. Qed.
    Lemma lx_near i : (i < n)%nat -> Rabs (real (at_ lx i) - ln (real (at_ xs i))) <= 1440 * e /\ 0 < real (at_ xs i) /\ Rabs (ln (real (at_ xs i))) <= 360.
    Proof. intros H. unfold lx. rewrite (lx_at log xs i H). apply log_ordinary; [exact LL | exact (ord_x xs ys PL i H)]. Qed.

    Lemma value_between i : (S i < n)%nat -> real (at_ xs i) <= real x <= real (at_ xs (S i)) ->
      Rmin (real (at_ ys i)) (real (at_ ys (S i))) * (1 - bpow radix2 (-39)) <= real y <= Rmax (real (at_ ys i)) (real (at_ ys (S i))) * (1 + bpow radix2 (-39)).
    Proof.
      intros H X. destruct (in_interval i H X) as (Q & _ & _ & _ & P & N). set (q := _ / _) in *.
      destruct (ly_near i ltac:(lia)) as (A0 & P0 & _). destruct (ly_near (S i) H) as (A1 & P1 & _).
      pose proof (mid_range q (real (at_ ly i)) (real (at_ ly (S i))) Q) as M. pose proof e_pos.
      apply Rabs_le_inv in N. apply Rabs_le_inv in A0. apply Rabs_le_inv in A1.
      set (a := real (at_ ys i)) in *. set (b := real (at_ ys (S i))) in *.
      split.
      - assert (Pm : 0 < Rmin a b) by (apply Rmin_glb_lt; assumption). apply (near_log_below _ _ (5645 * e)); [exact P | exact Pm | | lra].
        assert (L : ln (Rmin a b) <= ln a /\ ln (Rmin a b) <= ln b) by (split; apply ln_le; try exact Pm; [apply Rmin_l | apply Rmin_r]).
        assert (ln (Rmin a b) - 1440 * e <= Rmin (real (at_ ly i)) (real (at_ ly (S i)))) by (apply Rmin_glb; lra). lra.
      - assert (Pm : 0 < Rmax a b) by (pose proof (Rmax_l a b); lra). apply (near_log _ _ (5645 * e)); [exact P | exact Pm | | lra].
        assert (L : ln a <= ln (Rmax a b) /\ ln b <= ln (Rmax a b)) by (split; apply ln_le; try assumption; [apply Rmax_l | apply Rmax_r]).
        assert (Rmax (real (at_ ly i)) (real (at_ ly (S i))) <= ln (Rmax a b) + 1440 * e) by (apply Rmax_lub; lra). lra.
    Qed.

    Lemma value_point i : (i < n)%nat -> real x = real (at_ xs i) -> Rabs (real y - real (at_ ys i)) <= bpow radix2 (-39) * real (at_ ys i).
    Proof.
      intros H X. pose proof (len xs ys PL) as L. fold n in L. pose proof e_pos. destruct (ly_near i H) as (A & P & _).
      assert (K : 0 < real y /\ Rabs (ln (real y) - real (at_ ly i)) <= 4205 * e).
      { assert (EX : real (log x) = real (at_ lx i)).
        { destruct (ord_x xs ys PL i H) as (Vi & Fi & Oi). pose proof (bpow_gt_0 radix2 (-400)). unfold lx. rewrite (lx_at log xs i H).
          apply Rle_antisym; apply (mono log LL); try assumption; lra. }
        destruct (Nat.eq_dec (S i) n) as [G | G].
        - destruct i as [| i]; [lia |]. pose proof (order xs ys PL i (S i) ltac:(lia) H).
          destruct (in_interval i ltac:(lia) ltac:(lra)) as (_ & _ & _ & _ & Py & N). split; [exact Py |]. rewrite EX in N.
          pose proof (log_step log xs ST i ltac:(fold n; lia)) as St. fold lx in St.
          replace ((real (at_ lx (S i)) - real (at_ lx i)) / (real (at_ lx (S i)) - real (at_ lx i))) with 1 in N by (field; lra).
          replace (real (at_ ly i) + 1 * (real (at_ ly (S i)) - real (at_ ly i))) with (real (at_ ly (S i))) in N by ring. exact N.
        - assert (H' : (S i < n)%nat) by lia. pose proof (order xs ys PL i (S i) ltac:(lia) H').
          destruct (in_interval i H' ltac:(lra)) as (_ & _ & _ & _ & Py & N). split; [exact Py |]. rewrite EX in N.
          rewrite (Rminus_diag_eq (real (at_ lx i)) _ eq_refl) in N. unfold Rdiv in N. rewrite !Rmult_0_l, Rplus_0_r in N. exact N. }
      destruct K as [Py N]. apply Rabs_le_inv in N. apply Rabs_le_inv in A.
      pose proof (near_log (real y) (real (at_ ys i)) (5645 * e) Py P ltac:(lra) ltac:(lra)).
      pose proof (near_log_below (real y) (real (at_ ys i)) (5645 * e) Py P ltac:(lra) ltac:(lra)). apply Rabs_le. lra.
    Qed.

    Lemma value_power (SP : spaced xs) i : (S i < n)%nat -> real (at_ xs i) <= real x <= real (at_ xs (S i)) ->
      let s := slope (real (at_ xs i)) (real (at_ xs (S i))) (real (at_ ys i)) (real (at_ ys (S i))) in
      Rabs (ln (real y) - power_line (real (at_ xs i)) (real (at_ xs (S i))) (real (at_ ys i)) (real (at_ ys (S i))) (real x)) <= bpow radix2 (-38) * (1 + Rabs s).
    Proof.
      intros H X s. destruct (in_interval i H X) as (Q & Ox & _ & _ & P & N). unfold power_line. fold s. unfold slope in s.
      destruct (ly_near i ltac:(lia)) as (A0 & P0 & _). destruct (ly_near (S i) H) as (A1 & P1 & _).
      destruct (lx_near i ltac:(lia)) as (C0 & R0 & _). destruct (lx_near (S i) H) as (C1 & R1 & _).
      destruct (log_ordinary log x LL Ox) as (_ & Cx & Px & _).
      pose proof (ln_spaced log xs ys i LL PL SP H) as St. pose proof e_pos as Ep. pose proof e_tiny.
      assert (Lx : ln (real (at_ xs i)) <= ln (real x) <= ln (real (at_ xs (S i)))) by (split; apply ln_le; lra).
      set (a := ln (real (at_ xs i))) in *. set (b := ln (real (at_ xs (S i)))) in *. set (z := ln (real x)) in *.
      set (u := ln (real (at_ ys i))) in *. set (v := ln (real (at_ ys (S i)))) in *.
      set (a' := real (at_ lx i)) in *. set (b' := real (at_ lx (S i))) in *. set (z' := real (log x)) in *.
      set (u' := real (at_ ly i)) in *. set (v' := real (at_ ly (S i))) in *. set (q := (z' - a') / (b' - a')) in *.
      apply Rabs_le_inv in A0. apply Rabs_le_inv in A1. apply Rabs_le_inv in C0. apply Rabs_le_inv in C1. apply Rabs_le_inv in Cx. apply Rabs_le_inv in N.
      assert (W : (b - a) / 2 <= b' - a') by lra.
      set (p := (z - a) / (b - a)). assert (pw : p * (b - a) = z - a) by (unfold p; field; lra).
      assert (Hp : 0 <= p <= 1).
      { unfold p. split; [apply Rmult_le_pos; [lra | apply Rlt_le, Rinv_0_lt_compat; lra] |].
        apply Rmult_le_reg_r with (b - a); [lra |]. unfold Rdiv. rewrite Rmult_assoc, Rinv_l by lra. lra. }
      assert (sw : s * (b - a) = v - u) by (unfold s; field; lra).
      replace (s * (z - a)) with (p * (v - u)) by (rewrite <- pw, <- sw; ring).
      (* the difference of the parts, times the width *)
      assert (D : Rabs (q - p) * (b' - a') <= 5760 * e).
      { rewrite <- (Rabs_pos_eq (b' - a')) by lra. rewrite <- Rabs_mult.
        replace ((q - p) * (b' - a')) with ((z' - z) - (a' - a) - p * ((b' - b) - (a' - a))) by (rewrite Rmult_minus_distr_r; unfold q; replace ((z' - a') / (b' - a') * (b' - a')) with (z' - a') by (field; lra); replace (p * (b' - a')) with (p * (b - a) + p * ((b' - b) - (a' - a))) by ring; rewrite pw; ring).
        assert (Rabs (p * ((b' - b) - (a' - a))) <= 1 * (2880 * e)) as K by (rewrite Rabs_mult; apply Rmult_le_compat; try apply Rabs_pos; apply Rabs_le; lra).
        apply Rabs_le_inv in K. apply Rabs_le. lra. }
      assert (D1 : Rabs (q - p) * (b - a) <= 11520 * e).
      { apply Rle_trans with (Rabs (q - p) * (2 * (b' - a'))); [apply Rmult_le_compat_l; [apply Rabs_pos | lra] | lra]. }
      assert (D2 : Rabs (q - p) <= 15 / 10).
      { apply Rmult_le_reg_r with (8192 * e); [lra |]. apply Rle_trans with (Rabs (q - p) * (b - a)); [apply Rmult_le_compat_l; [apply Rabs_pos | lra] | lra]. }
      assert (T1 : Rabs ((q - p) * (v - u)) <= 11520 * e * Rabs s).
      { rewrite <- sw, !Rabs_mult, (Rabs_pos_eq (b - a)) by lra. replace (Rabs (q - p) * (Rabs s * (b - a))) with (Rabs (q - p) * (b - a) * Rabs s) by ring.
        apply Rmult_le_compat_r; [apply Rabs_pos | exact D1]. }
      assert (T2 : Rabs ((q - p) * ((v' - v) - (u' - u))) <= 15 / 10 * (2880 * e)).
      { rewrite Rabs_mult. apply Rmult_le_compat; try apply Rabs_pos; [exact D2 | apply Rabs_le; lra]. }
      assert (T3 : Rabs ((u' - u) + p * ((v' - v) - (u' - u))) <= 1440 * e).
      { replace ((u' - u) + p * ((v' - v) - (u' - u))) with ((1 - p) * (u' - u) + p * (v' - v)) by ring.
        assert ((1 - p) * (u' - u) <= (1 - p) * (1440 * e)) by (apply Rmult_le_compat_l; lra). assert (p * (v' - v) <= p * (1440 * e)) by (apply Rmult_le_compat_l; lra).
        assert ((1 - p) * - (1440 * e) <= (1 - p) * (u' - u)) by (apply Rmult_le_compat_l; lra). assert (p * - (1440 * e) <= p * (v' - v)) by (apply Rmult_le_compat_l; lra).
        apply Rabs_le. lra. }
      assert (E38 : bpow radix2 (-38) = 16384 * e) by (change (-38)%Z with (14 + -52)%Z; now rewrite bpow_plus). rewrite E38.
      pose proof (Rabs_pos s). assert (0 <= e * Rabs s) by (apply Rmult_le_pos; lra).
      apply Rabs_le_inv in T1. apply Rabs_le_inv in T2. apply Rabs_le_inv in T3. apply Rabs_le.
      replace (ln (real y) - (u + p * (v - u))) with ((ln (real y) - (u' + q * (v' - u'))) + (q - p) * (v - u) + (q - p) * ((v' - v) - (u' - u)) + ((u' - u) + p * ((v' - v) - (u' - u)))) by ring.
      lra.
    Qed.
  End At.

  Lemma ll_number x cache : (S cache < n)%nat -> double x -> finite x ->
    exists y c, loglog_at log ex xs ys lx ly x cache = Some (y, c) /\ (S c < n)%nat /\ double y /\ finite y /\ 0 < real y.
  Proof.
    intros C V F. pose proof (len xs ys PL) as L. fold n in L. destruct (called x cache V F C) as (y & c & E & Hc & D). exists y, c. split; [exact E |]. split; [exact Hc |].
    pose proof (bpow_gt_0 radix2 (-400)).
    destruct D as [[_ ->] | [[_ ->] | (B & _)]].
    - destruct (ord_y xs ys PL 0 ltac:(fold n; lia)) as (Vy & Fy & Oy). repeat split; [exact Vy | exact Fy | lra].
    - destruct (ord_y xs ys PL (n - 1) ltac:(fold n; lia)) as (Vy & Fy & Oy). repeat split; [exact Vy | exact Fy | lra].
    - destruct (find_interval x cache C B) as (i & Hi & Xi). destruct (in_interval x cache V F C y c E i Hi Xi) as (_ & _ & Vy & Fy & Py & _). auto.
  Qed.

  Lemma ll_history x c1 c2 y1 y2 c1' c2' : (S c1 < n)%nat -> (S c2 < n)%nat -> double x -> finite x ->
    loglog_at log ex xs ys lx ly x c1 = Some (y1, c1') -> loglog_at log ex xs ys lx ly x c2 = Some (y2, c2') -> y1 = y2.
  Proof.
    intros C1 C2 V F E1 E2. destruct (called x c1 V F C1) as (y & c & E & _ & D). rewrite E1 in E. injection E as <- <-.
    destruct (called x c2 V F C2) as (y' & c' & E' & _ & D'). rewrite E2 in E'. injection E' as <- <-.
    pose proof (len xs ys PL) as L. fold n in L. pose proof (order xs ys PL 0 (n - 1) ltac:(lia) ltac:(fold n; lia)).
    destruct D as [[D ->] | [[D ->] | (B & s & Es & ->)]]; destruct D' as [[D' ->] | [[D' ->] | (B' & s' & Es' & ->)]]; try lra; try reflexivity.
    destruct (spline log xs ys LL PL ST x V F B c1 C1) as (j & J & K). destruct (spline log xs ys LL PL ST x V F B c2 C2) as (j' & J' & K').
    fold lx in J, K, J', K'. fold ly in K, K'. rewrite Es in K. rewrite Es' in K'. injection K as -> _. injection K' as -> _.
    now rewrite (located_once lx _ (fit log xs ys LL PL ST) (log x) j j' J J').
  Qed.

  Lemma ll_outside x cache y c : (S cache < n)%nat -> double x -> finite x -> loglog_at log ex xs ys lx ly x cache = Some (y, c) ->
    (forall a b, nth_error xs 0 = Some a -> nth_error ys 0 = Some b -> real x < real a -> y = b) /\
    (forall a b, nth_error xs (List.length xs - 1) = Some a -> nth_error ys (List.length xs - 1) = Some b -> real a < real x -> y = b).
  Proof.
    intros C V F E. destruct (called x cache V F C) as (y' & c' & E' & _ & D). rewrite E in E'. injection E' as <- <-.
    pose proof (len xs ys PL) as L. fold n in L. pose proof (order xs ys PL 0 (n - 1) ltac:(lia) ltac:(fold n; lia)). fold n.
    split; intros a b Ha Hb K; apply error_at in Ha, Hb; destruct Ha as [-> _], Hb as [-> _]; destruct D as [[D ->] | [[D ->] | (B & _)]]; try lra; reflexivity.
  Qed.

  Lemma ll_between x cache y c x0 x1 y0 y1 : (S cache < n)%nat -> double x -> finite x -> loglog_at log ex xs ys lx ly x cache = Some (y, c) ->
    inside xs ys (real x) x0 x1 y0 y1 ->
    Rmin y0 y1 * (1 - bpow radix2 (-39)) <= real y <= Rmax y0 y1 * (1 + bpow radix2 (-39)) /\
    (spaced xs -> Rabs (ln (real y) - power_line x0 x1 y0 y1 (real x)) <= bpow radix2 (-38) * (1 + Rabs (slope x0 x1 y0 y1))).
  Proof.
    intros C V F E (i & P0 & P1 & X). destruct (located_point xs ys i _ _ _ _ P0 P1) as (L & -> & -> & -> & ->).
    split; [now apply (value_between x cache V F C y c E) | intros SP; now apply (value_power x cache V F C y c E SP)].
  Qed.

  Lemma ll_point x cache y c i xi yi : (S cache < n)%nat -> double x -> finite x -> loglog_at log ex xs ys lx ly x cache = Some (y, c) ->
    nth_error xs i = Some xi -> nth_error ys i = Some yi -> real x = real xi -> Rabs (real y - real yi) <= bpow radix2 (-39) * real yi.
  Proof.
    intros C V F E Hx Hy K. apply error_at in Hx, Hy. destruct Hx as [-> L], Hy as [-> _]. now apply (value_point x cache V F C y c E).
  Qed.
End Table.
