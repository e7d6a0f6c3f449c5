(** * Log-log tables in double precision (C101): numbers with the same logarithm *)
From Coq Require Import ZArith Reals List Bool Lra Lia Floats.SpecFloat.
From Flocq Require Import Core Relative BinarySingleNaN.
From Verif Require Import Num Double_spec Double_proofs Double_proofs2 Maq_double_proofs Deriv_proofs3 Totals Totals_spec
  Totals_proofs Totals_proofs2 Totals_proofs4 Totals_proofs6 Totals_proofs7 Spread Spread_spec Spread_proofs Spread_proofs4
  Tabled Tabled_spec Tabled_proofs Tabled_proofs2 Hyperbola_spec Hyperbola_proofs Hyperbola_proofs2 Hyperbola_proofs3
  Loglog Loglog_spec Loglog_proofs Loglog_proofs2 Loglog_proofs3.
Import ListNotations.
Local Open Scope R_scope.
Local Instance p53i : Prec_gt_0 53 := eq_refl.
Local Instance e1024i : Prec_lt_emax 53 1024 := eq_refl.
Local Instance fx : Valid_exp (SpecFloat.fexp 53 1024) := fexp_correct 53 1024 p53i.

(** Doubles from [2^-40] on, one after the other. *)
Definition grain (k : Z) : F64 := nearest (IZR (2 ^ 52 + k) * bpow radix2 (-92)).

Lemma grain_is k : (0 <= k <= 2 ^ 50)%Z -> ordinary (grain k) /\ real (grain k) = IZR (2 ^ 52 + k) * bpow radix2 (-92) /\
  bpow radix2 (-40) <= real (grain k) <= bpow radix2 (-39).
Proof.
  intros H. set (r := IZR (2 ^ 52 + k) * bpow radix2 (-92)).
  assert (R : bpow radix2 (-40) <= r <= bpow radix2 (-39)).
  { change (-40)%Z with (52 + -92)%Z. change (-39)%Z with (53 + -92)%Z. rewrite !bpow_plus. pose proof (bpow_ge_0 radix2 (-92)).
    change (bpow radix2 52) with (IZR (2 ^ 52)). change (bpow radix2 53) with (IZR (2 ^ 53)).
    split; apply Rmult_le_compat_r; try assumption; apply IZR_le; lia. }
  pose proof (bpow_gt_0 radix2 (-40)) as P40.
  assert (G : rd r = r).
  { apply round_generic; [apply valid_rnd_N |]. change (SpecFloat.fexp 53 1024) with (FLT_exp (-1074) 53).
    apply generic_format_FLT. exists (Float radix2 (2 ^ 52 + k) (-92)); [reflexivity | change (Z.abs (2 ^ 52 + k) < 2 ^ 53)%Z; lia | cbn [Fexp]; lia]. }
  assert (b39 : bpow radix2 (-39) <= 1) by (change 1 with (bpow radix2 0); apply bpow_le; lia).
  destruct (nearest_value r) as (V & F & E).
  { rewrite Rabs_pos_eq by lra. apply Rle_trans with 1; [lra | change 1 with (bpow radix2 0); apply bpow_le; lia]. }
  rewrite G in E. unfold grain. fold r. rewrite E. split; [| split; [reflexivity | exact R]].
  split; [exact V |]. split; [exact F |]. rewrite E. split; [apply Rle_trans with (bpow radix2 (-40)); [apply bpow_le; lia | lra] |].
  apply Rle_trans with (bpow radix2 (-39)); [lra | apply bpow_le; lia].
Qed.

Lemma gap a b : rd a = a -> rd b = b -> a < b -> b <= -16 -> a + bpow radix2 (-49) <= b.
Proof.
  intros Fa Fb L B. assert (Fa' : rd (- a) = - a) by (rewrite rnd_opp; congruence). assert (Fb' : rd (- b) = - b) by (rewrite rnd_opp; congruence).
  pose proof (pred_ge_gt radix2 (SpecFloat.fexp 53 1024) (- b) (- a) (format_of _ Fb') (format_of _ Fa') ltac:(lra)) as K.
  pose proof (pred_gap (- a) ltac:(lra)) as G.
  assert (bpow radix2 (-49) <= bpow radix2 (-53) * - a); [| lra].
  change (-49)%Z with (-53 + 4)%Z. rewrite bpow_plus. apply Rmult_le_compat_l; [apply bpow_ge_0 |]. change (bpow radix2 4) with 16. lra.
Qed.

(** Some two neighbours have the same logarithm. *)
Lemma collision log : rising_log log -> exists a b, ordinary a /\ ordinary b /\ real a < real b /\ real (log b) = real (log a) /\ real (log a) <= 0 /\ real b <= 1 /\ bpow radix2 (-60) <= real a.
Proof.
  intros LL. pose proof LL as (_ & _ & M). pose proof e_pos as Ep. pose proof e_tiny as Et.
  assert (Low : forall k, (0 <= k <= 2 ^ 50)%Z -> real (log (grain k)) <= -16 /\ rd (real (log (grain k))) = real (log (grain k)) /\
    Rabs (real (log (grain k)) - ln (real (grain k))) <= 1440 * e).
  { intros k H. destruct (grain_is k H) as (O & _ & B). destruct (log_ordinary log _ LL O) as ((V & _ & _) & A & P & _).
    split; [| split; [exact (value_format 53 1024 _ V) | exact A]]. apply Rabs_le_inv in A.
    assert (ln (real (grain k)) <= ln (bpow radix2 (-39))) by (apply ln_le; lra). rewrite ln_bpow in *. pose proof ln_lt_2. lra. }
  assert (K : forall k, (0 <= k)%Z -> (k <= 2 ^ 50)%Z ->
    (exists j, (0 <= j < k)%Z /\ real (log (grain (j + 1))) <= real (log (grain j))) \/ real (log (grain 0)) + IZR k * bpow radix2 (-49) <= real (log (grain k))).
  { intros k Hk. pattern k. revert k Hk. apply natlike_ind.
    - intros _. right. lra.
    - intros k Hk IH H. destruct (IH ltac:(lia)) as [(j & J & N) | N].
      + left. exists j. split; [lia | exact N].
      + unfold Z.succ. destruct (Rle_or_lt (real (log (grain (k + 1)))) (real (log (grain k)))) as [G | G]; [left; exists k; split; [lia | exact G] |].
        right. destruct (Low k ltac:(lia)) as (_ & F1 & _). destruct (Low (k + 1)%Z ltac:(lia)) as (L2 & F2 & _).
        pose proof (gap _ _ F1 F2 G L2). rewrite plus_IZR. lra. }
  destruct (K (2 ^ 50)%Z ltac:(lia) ltac:(lia)) as [(j & J & N) | N].
  - destruct (grain_is j ltac:(lia)) as (O1 & E1 & B1). destruct (grain_is (j + 1) ltac:(lia)) as (O2 & E2 & B2).
    exists (grain j), (grain (j + 1)). split; [exact O1 |]. split; [exact O2 |].
    assert (L : real (grain j) < real (grain (j + 1))) by (rewrite E1, E2; apply Rmult_lt_compat_r; [apply bpow_gt_0 | apply IZR_lt; lia]).
    split; [exact L |]. pose proof (bpow_gt_0 radix2 (-40)). destruct O1 as (V1 & F1 & _). destruct O2 as (V2 & F2 & _).
    pose proof (M (grain j) (grain (j + 1)) V1 F1 V2 F2 ltac:(lra)). split; [lra |]. destruct (Low j ltac:(lia)) as (Lo & _).
    split; [lra |]. split; [apply Rle_trans with (bpow radix2 (-39)); [lra |]; change 1 with (bpow radix2 0); apply bpow_le; lia |].
    apply Rle_trans with (bpow radix2 (-40)); [apply bpow_le; lia | lra].
  - exfalso. destruct (Low 0%Z ltac:(lia)) as (_ & _ & A0). destruct (Low (2 ^ 50)%Z ltac:(lia)) as (_ & _ & A1). apply Rabs_le_inv in A0. apply Rabs_le_inv in A1.
    destruct (grain_is 0 ltac:(lia)) as (_ & _ & B0). destruct (grain_is (2 ^ 50) ltac:(lia)) as (_ & _ & B1). pose proof (bpow_gt_0 radix2 (-40)).
    assert (ln (bpow radix2 (-40)) <= ln (real (grain 0))) by (apply ln_le; lra).
    assert (ln (real (grain (2 ^ 50))) <= ln (bpow radix2 (-39))) by (apply ln_le; lra). rewrite !ln_bpow in *.
    replace (IZR (2 ^ 50) * bpow radix2 (-49)) with 2 in N by (change (IZR (2 ^ 50)) with (bpow radix2 50); rewrite <- bpow_plus; reflexivity).
    pose proof ln2_top. pose proof ln_lt_2. lra.
Qed.

(** A table with two such arguments is refused. *)
Lemma refute_accepted log : rising_log log -> exists xs ys, plotted xs ys /\ loglog_new log xs ys = None.
Proof.
  intros LL. destruct (collision log LL) as (a & b & Oa & Ob & L & E & _). exists [a; b], [a; b]. split.
  - split; [reflexivity |]. split; [cbn; lia |]. split; [apply Forall_cons; [assumption | apply Forall_cons; [assumption | apply Forall_nil]] |]. split; [apply Forall_cons; [assumption | apply Forall_cons; [assumption | apply Forall_nil]] |].
    intros i x x' H H'. destruct i as [| [| i]]; [| discriminate H' |]; [| destruct i; discriminate H']. injection H as <-. injection H' as <-. exact L.
  - unfold loglog_new. cbn [map increasing]. destruct (log_ordinary log a LL Oa) as ((Va & Fa & _) & _). destruct (log_ordinary log b LL Ob) as ((Vb & Fb & _) & _).
    rewrite (proj2 (ltb_real_false _ _ Va Vb Fa Fb)); [reflexivity | lra].
Qed.

(** The arguments 1 and 2. *)
Definition one_two : list F64 := [nofZ F64 1; nofZ F64 2].
Lemma int_ordinary k : (1 <= k <= 12)%Z -> ordinary (nofZ F64 k) /\ real (nofZ F64 k) = IZR k.
Proof.
  intros H. destruct (small_int k ltac:(lia)) as [(V & F & B) E]. split; [| exact E]. split; [exact V |]. split; [exact F |]. split; [| lra]. rewrite E.
  apply Rle_trans with 1; [change 1 with (bpow radix2 0); apply bpow_le; lia | change 1 with (IZR 1); apply IZR_le; lia].
Qed.

Lemma plotted_two a : ordinary a -> plotted one_two [a; nofZ F64 1] /\ spaced one_two.
Proof.
  intros Oa. destruct (int_ordinary 1 ltac:(lia)) as [O1 E1]. destruct (int_ordinary 2 ltac:(lia)) as [O2 E2].
  assert (Two : forall i x x', nth_error one_two i = Some x -> nth_error one_two (S i) = Some x' -> x = nofZ F64 1 /\ x' = nofZ F64 2).
  { intros i x x' H H'. unfold one_two in *. destruct i as [| [| i]]; [| discriminate H' |]; [| destruct i; discriminate H'].
    cbn [nth_error] in H, H'. split; congruence. }
  split.
  - split; [reflexivity |]. split; [cbn; lia |]. split; [apply Forall_cons; [assumption | apply Forall_cons; [assumption | apply Forall_nil]] |]. split; [apply Forall_cons; [assumption | apply Forall_cons; [assumption | apply Forall_nil]] |].
    intros i x x' H H'. destruct (Two i x x' H H') as [-> ->]. rewrite E1, E2. lra.
  - intros i x x' H H'. destruct (Two i x x' H H') as [-> ->]. rewrite E1, E2.
    assert (bpow radix2 (-38) <= 1) by (change 1 with (bpow radix2 0); apply bpow_le; lia). lra.
Qed.

(** The value at the first point of a table. *)
Lemma at_first log ex a : rising_log log -> exponential ex -> ordinary a -> exists s c,
  loglog_at log ex one_two [a; nofZ F64 1] (map log one_two) (map log [a; nofZ F64 1]) (nofZ F64 1) 0 = Some (ex s, c) /\
  double s /\ finite s /\ real s = real (log a).
Proof.
  intros LL LE Oa. destruct (plotted_two a Oa) as [PL SP]. destruct (int_ordinary 1 ltac:(lia)) as [O1 E1]. destruct (int_ordinary 2 ltac:(lia)) as [O2 E2].
  pose proof O1 as (V1 & F1 & _).
  assert (B : real (at_ one_two 0) <= real (nofZ F64 1) <= real (at_ one_two (List.length one_two - 1))).
  { change (at_ one_two 0) with (nofZ F64 1). change (at_ one_two (List.length one_two - 1)) with (nofZ F64 2). rewrite E1, E2. lra. }
  destruct (spline log one_two [a; nofZ F64 1] LL PL (spaced_steps log _ _ LL PL SP) (nofZ F64 1) V1 F1 B 0 ltac:(cbn; lia)) as (j & (Hj & _) & E).
  rewrite map_length in Hj. change (List.length one_two) with 2%nat in Hj. assert (j = 0)%nat by lia. subst j.
  set (lx := map log one_two) in *. set (ly := map log [a; nofZ F64 1]) in *.
  change (at_ lx 0) with (log (nofZ F64 1)) in E. change (at_ lx 1) with (log (nofZ F64 2)) in E.
  change (at_ ly 0) with (log a) in E. change (at_ ly 1) with (log (nofZ F64 1)) in E.
  pose proof (log_ordinary log _ LL O1) as (G1 & _). pose proof (log_ordinary log _ LL O2) as (G2 & _). pose proof (log_ordinary log _ LL Oa) as (Ga & _).
  assert (St : real (log (nofZ F64 1)) + 5312 * e <= real (log (nofZ F64 2))) by exact (spaced_step log one_two _ 0 LL PL SP ltac:(cbn; lia)).
  pose proof e_pos. pose proof G1 as (VL & FL & _).
  assert (W : real (log (nofZ F64 1)) + bpow radix2 (-1000) <= real (log (nofZ F64 2))).
  { assert (bpow radix2 (-1000) <= e) by (apply bpow_le; lia). lra. }
  destruct (segment_log (log (nofZ F64 1)) (log (nofZ F64 2)) (log a) (log (nofZ F64 1)) (log (nofZ F64 1)) G1 G2 Ga G1 VL FL W ltac:(lra)) as (Vs & Fs & Rs).
  set (s := segment _ _ _ _ _) in *. exists s, 0%nat. split.
  - unfold loglog_at. change (at_ one_two 0) with (nofZ F64 1). change (at_ one_two (List.length one_two - 1)) with (nofZ F64 2).
    pose proof O2 as (V2 & F2 & _). rewrite (proj2 (ltb_real_false _ _ V1 V1 F1 F1) ltac:(lra)), (proj2 (ltb_real_false _ _ V2 V1 F2 F1) ltac:(rewrite E1, E2; lra)).
    fold lx. fold ly. now rewrite E.
  - split; [exact Vs |]. split; [exact Fs |]. rewrite Rs, part_first by lra. apply on_first. exact (value_format 53 1024 _ (proj1 Ga)).
Qed.

(** Some table does not give an ordinate back. *)
Lemma refute_point log ex : rising_log log -> rising_exp ex -> exists xs ys x y z c, plotted xs ys /\ spaced xs /\
  nth_error xs 0 = Some x /\ nth_error ys 0 = Some y /\ loglog_at log ex xs ys (map log xs) (map log ys) x 0 = Some (z, c) /\ real z <> real y.
Proof.
  intros LL (LE & _ & M). destruct (collision log LL) as (a & b & Oa & Ob & L & E & N & _).
  destruct (at_first log ex a LL LE Oa) as (s & c & Es & Vs & Fs & Rs). destruct (at_first log ex b LL LE Ob) as (s' & c' & Es' & Vs' & Fs' & Rs').
  assert (Q : real (ex s) = real (ex s')) by (apply Rle_antisym; apply M; try assumption; lra).
  destruct (Req_dec (real (ex s)) (real a)) as [Y | Y].
  - exists one_two, [b; nofZ F64 1], (nofZ F64 1), b, (ex s'), c'. destruct (plotted_two b Ob) as [PL SP].
    repeat (split; [assumption || reflexivity |]). lra.
  - exists one_two, [a; nofZ F64 1], (nofZ F64 1), a, (ex s), c. destruct (plotted_two a Oa) as [PL SP].
    repeat (split; [assumption || reflexivity |]). exact Y.
Qed.

Section Made.
  Variables (log ex : F64 -> F64) (xs ys lx ly : list F64).
  Hypotheses (LL : rising_log log) (LE : exponential ex) (PL : plotted xs ys) (New : loglog_new log xs ys = Some (lx, ly)).

  Lemma made_number x cache : (S cache < List.length xs)%nat -> double x -> finite x ->
    exists y c, loglog_at log ex xs ys lx ly x cache = Some (y, c) /\ (S c < List.length xs)%nat /\ double y /\ finite y /\ 0 < real y.
  Proof. destruct (accepted_steps _ _ _ _ _ LL PL New) as (-> & -> & ST). exact (ll_number log ex xs ys LL LE PL ST x cache). Qed.

  Lemma made_history x c1 c2 y1 y2 c1' c2' : (S c1 < List.length xs)%nat -> (S c2 < List.length xs)%nat -> double x -> finite x ->
    loglog_at log ex xs ys lx ly x c1 = Some (y1, c1') -> loglog_at log ex xs ys lx ly x c2 = Some (y2, c2') -> y1 = y2.
  Proof. destruct (accepted_steps _ _ _ _ _ LL PL New) as (-> & -> & ST). exact (ll_history log ex xs ys LL PL ST x c1 c2 y1 y2 c1' c2'). Qed.

  Lemma made_outside x cache y c : (S cache < List.length xs)%nat -> double x -> finite x -> loglog_at log ex xs ys lx ly x cache = Some (y, c) ->
    (forall a b, nth_error xs 0 = Some a -> nth_error ys 0 = Some b -> real x < real a -> y = b) /\
    (forall a b, nth_error xs (List.length xs - 1) = Some a -> nth_error ys (List.length xs - 1) = Some b -> real a < real x -> y = b).
  Proof. destruct (accepted_steps _ _ _ _ _ LL PL New) as (-> & -> & ST). exact (ll_outside log ex xs ys LL PL ST x cache y c). Qed.

  Lemma made_between x cache y c x0 x1 y0 y1 : (S cache < List.length xs)%nat -> double x -> finite x -> loglog_at log ex xs ys lx ly x cache = Some (y, c) ->
    inside xs ys (real x) x0 x1 y0 y1 ->
    Rmin y0 y1 * (1 - bpow radix2 (-39)) <= real y <= Rmax y0 y1 * (1 + bpow radix2 (-39)) /\
    (spaced xs -> Rabs (ln (real y) - power_line x0 x1 y0 y1 (real x)) <= bpow radix2 (-38) * (1 + Rabs (slope x0 x1 y0 y1))).
  Proof. destruct (accepted_steps _ _ _ _ _ LL PL New) as (-> & -> & ST). exact (ll_between log ex xs ys LL LE PL ST x cache y c x0 x1 y0 y1). Qed.

  Lemma made_point x cache y c i xi yi : (S cache < List.length xs)%nat -> double x -> finite x -> loglog_at log ex xs ys lx ly x cache = Some (y, c) ->
    nth_error xs i = Some xi -> nth_error ys i = Some yi -> real x = real xi -> Rabs (real y - real yi) <= bpow radix2 (-39) * real yi.
  Proof. destruct (accepted_steps _ _ _ _ _ LL PL New) as (-> & -> & ST). exact (ll_point log ex xs ys LL LE PL ST x cache y c i xi yi). Qed.
End Made.

Lemma refute_made log ex : rising_log log -> rising_exp ex -> exists xs ys lx ly x y z c, plotted xs ys /\ spaced xs /\
  loglog_new log xs ys = Some (lx, ly) /\ nth_error xs 0 = Some x /\ nth_error ys 0 = Some y /\ loglog_at log ex xs ys lx ly x 0 = Some (z, c) /\ real z <> real y.
Proof.
  intros LL LE. destruct (refute_point log ex LL LE) as (xs & ys & x & y & z & c & PL & SP & H). exists xs, ys, (map log xs), (map log ys), x, y, z, c.
  split; [exact PL |]. split; [exact SP |]. split; [exact (accepted log xs ys LL PL (spaced_steps log xs ys LL PL SP)) | exact H].
Qed.

(** A table, a number between its two points, and the value there. *)
Lemma example_table : rising_log rounded_log /\ rising_exp rounded_exp /\ plotted one_two [nofZ F64 12; nofZ F64 1] /\ spaced one_two /\
  exists x, double x /\ finite x /\ inside one_two [nofZ F64 12; nofZ F64 1] (real x) 1 2 12 1 /\ 1 < real x < 2 /\ slope 1 2 12 1 < -2.
Proof.
  split; [exact rounded_rising_log |]. split; [exact rounded_rising_exp |]. destruct (int_ordinary 12 ltac:(lia)) as [O12 E12].
  destruct (plotted_two _ O12) as [PL SP]. split; [exact PL |]. split; [exact SP |].
  destruct (int_ordinary 1 ltac:(lia)) as [(V1 & F1 & _) E1]. destruct (int_ordinary 2 ltac:(lia)) as [(V2 & F2 & _) E2].
  assert (R15 : real (ndiv F64 (nofZ F64 3) (nofZ F64 2)) = 3 / 2) by (vm_compute; lra).
  exists (ndiv F64 (nofZ F64 3) (nofZ F64 2)). rewrite R15. split; [vm_compute; reflexivity |]. split; [vm_compute; exact I || reflexivity |].
  split; [| split; [lra |]].
  - exists 0%nat. split; [| split; [| lra]].
    + exists (nofZ F64 1), (nofZ F64 12). repeat split; try reflexivity; symmetry; assumption.
    + exists (nofZ F64 2), (nofZ F64 1). repeat split; try reflexivity; symmetry; assumption.
  - unfold slope. rewrite ln_1, Rminus_0_r. assert (ln 2 * 3 < ln 12).
    { replace (ln 2 * 3) with (ln (2 * (2 * 2))) by (rewrite !ln_mult by lra; ring). apply ln_increasing; lra. }
    pose proof ln_lt_2. apply Rmult_lt_reg_r with (ln 2); [lra |]. unfold Rdiv. rewrite Rmult_assoc, Rinv_l by lra. lra.
Qed.
