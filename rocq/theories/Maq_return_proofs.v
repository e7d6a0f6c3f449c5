(** * When an integration returns: the refinement of the directed search narrows its range
      until it stops, whatever the limit *)
From Coq Require Import ZArith Reals Lra Lia Bool List.
From Coq Require Import Floats.SpecFloat.
From Flocq Require Import Core BinarySingleNaN.
From Verif Require Import Num Maq Maq_spec Maq_search_proofs Maq_search_proofs2 Maq_loop_proofs Maq_proofs
  Double_spec Double_proofs Double_proofs2 Maq_double_spec Maq_double_proofs Maq_double_proofs2.
Import ListNotations.
Local Open Scope R_scope.

Local Instance p53i : Prec_gt_0 53 := eq_refl.

(** ** Middles *)
Lemma half_exact : forall x, double x -> finite_ x -> bpow radix2 (-1000) <= value x ->
  rnd 53 1024 (value x / 2) = value x / 2.
Proof.
  intros x V F Hbig. destruct (B_value x V) as [b ->]. rewrite value_B in *. apply round_generic; [apply valid_rnd_N|].
  change (generic_format radix2 (FLT_exp (3 - 1024 - 53) 53) (B2R b / 2)).
  destruct (FLT_format_generic radix2 (3 - 1024 - 53) 53 (B2R b) (generic_format_B2R 53 1024 b)) as [[m x] E M X].
  apply generic_format_FLT. exists (Float radix2 m (x - 1)).
  - rewrite E. unfold F2R. cbn [Fnum Fexp]. unfold Z.sub. rewrite bpow_plus. change (bpow radix2 (- (1))) with (/ 2). field.
  - exact M.
  - cbn [Fexp Fnum] in *. destruct (Z.eq_dec x (-1074)) as [->|Hne]; [exfalso|lia].
    rewrite E in Hbig. unfold F2R in Hbig. cbn [Fnum Fexp] in Hbig.
    assert (IZR m < bpow radix2 53).
    { change (bpow radix2 53) with (IZR (2 ^ 53)). apply IZR_lt. change (radix2 ^ 53)%Z with (2 ^ 53)%Z in M. lia. }
    assert (IZR m * bpow radix2 (-1074) < bpow radix2 53 * bpow radix2 (-1074))
      by (apply Rmult_lt_compat_r; [apply bpow_gt_0|assumption]).
    rewrite <- bpow_plus in H0. assert (bpow radix2 (53 + -1074) <= bpow radix2 (-1000)) by (apply bpow_le; lia). lra.
Qed.

Lemma sum_err : forall r, 0 <= r <= 2 -> Rabs (rnd 53 1024 r - r) <= bpow radix2 (-53).
Proof.
  intros r Hr. pose proof (bpow_gt_0 radix2 (-53)) as P.
  destruct (Req_dec r 0) as [->|H0].
  { rewrite rnd64_0. rewrite Rminus_0_r, Rabs_R0. lra. }
  destruct (Req_dec r 2) as [->|H2].
  { assert (E : rnd 53 1024 2 = 2) by (change 2 with (bpow radix2 1); apply (rnd_power 53 1024); cbv; discriminate).
    rewrite E. replace (2 - 2) with 0 by lra. rewrite Rabs_R0. lra. }
  change (rnd 53 1024 r) with (round radix2 (FLT_exp (3 - 1024 - 53) 53) ZnearestE r).
  eapply Rle_trans; [apply error_le_half_ulp; apply FLT_exp_valid; reflexivity|].
  rewrite ulp_neq_0 by exact H0.
  replace (bpow radix2 (-53)) with (/ 2 * bpow radix2 (-52)).
  2:{ change (-53)%Z with (-1 + -52)%Z. rewrite bpow_plus. reflexivity. }
  apply Rmult_le_compat_l; [lra|]. apply bpow_le. unfold cexp, FLT_exp.
  assert (mag radix2 r <= 1)%Z; [|lia].
  apply mag_le_bpow; [exact H0|]. rewrite Rabs_pos_eq by lra. change (bpow radix2 1) with 2. lra.
Qed.

Lemma mid_err : forall x y X Y, holds x X -> holds y Y -> 0 <= X <= Y -> Y <= 1 ->
  exists M, holds (ndiv F64 (nadd F64 x y) (nofZ F64 2)) M /\ X <= M <= Y /\
            Rabs (M - (X + Y) / 2) <= bpow radix2 (-54).
Proof.
  intros x y X Y HX HY H1 H2. destruct (mid_ok x y X Y HX HY H1 H2) as (M & HM & BM).
  exists M. split; [exact HM|]. split; [exact BM|].
  destruct (Rlt_le_dec (X + Y) (bpow radix2 (-999))) as [L|L].
  { assert (bpow radix2 (-999) <= bpow radix2 (-54)) by (apply bpow_le; lia). apply Rabs_le. lra. }
  destruct HX as (Dx & Fx & <-), HY as (Dy & Fy & <-). destruct two_ok as (V2 & F2 & E2).
  destruct (add_value 53 1024 p53 e1024 x y Dx Dy Fx Fy) as [Fs Es]; [apply small_ok'; lra|].
  pose proof (valid_add 53 1024 p53 e1024 x y Dx Dy) as Vs.
  pose proof (sum_err (value x + value y) ltac:(lra)) as Hs. rewrite <- Es in Hs.
  set (S := SFadd 53 1024 x y) in *.
  assert (HS : bpow radix2 (-1000) <= value S).
  { rewrite Es. rewrite <- (rnd_power 53 1024 (-1000)) by (cbv; discriminate).
    apply (rnd_le 53 1024 p53).
    assert (bpow radix2 (-1000) <= bpow radix2 (-999)) by (apply bpow_le; lia). lra. }
  pose proof (half_exact S Vs Fs HS) as Eh.
  assert (B4 : -4 <= value S <= 4).
  { assert (E4 : rnd 53 1024 4 = 4) by (change 4 with (bpow radix2 2); apply (rnd_power 53 1024); cbv; discriminate).
    split; [pose proof (bpow_gt_0 radix2 (-1000)); lra|]. rewrite Es, <- E4. apply (rnd_le 53 1024 p53). lra. }
  destruct (div_value 53 1024 p53 e1024 S two Vs V2 Fs) as [Fc Ec].
  { rewrite E2. lra. }
  { rewrite E2. apply small_ok'. lra. }
  destruct HM as (_ & _ & EM). change (value (SFdiv 53 1024 S two) = M) in EM.
  rewrite Ec, E2, Eh in EM. rewrite <- EM.
  replace (value S / 2 - (value x + value y) / 2) with ((value S - (value x + value y)) * / 2) by lra.
  rewrite Rabs_mult, (Rabs_pos_eq (/ 2)) by lra.
  change (-54)%Z with (-53 + -1)%Z. rewrite bpow_plus. change (bpow radix2 (-1)) with (/ 2).
  apply Rmult_le_compat_r; [lra|exact Hs].
Qed.

(** ** Widths *)
Lemma eps_holds : holds (neps F64) (bpow radix2 (-52)).
Proof.
  split; [reflexivity|]. split; [reflexivity|]. unfold value, SF2R, F2R. cbn [neps F64 cond_Zopp Fnum Fexp].
  change (IZR (Z.pos 4503599627370496)) with (bpow radix2 52). rewrite <- bpow_plus. reflexivity.
Qed.

Lemma narrow : forall a b A B, holds a A -> holds b B -> 0 <= A <= B -> B <= 1 ->
  B - A < bpow radix2 (-52) + bpow radix2 (-105) ->
  nltb F64 (neps F64) (nsub F64 b a) = false.
Proof.
  intros a b A B (Da & Fa & <-) (Db & Fb & <-) H1 H2 H.
  destruct (sub_value 53 1024 p53 e1024 b a Db Da Fb Fa) as [Fs Es]; [apply small_ok'; lra|].
  pose proof (valid_sub 53 1024 p53 e1024 b a Db Da) as Vs.
  destruct (nltb F64 (neps F64) (nsub F64 b a)) eqn:E; [exfalso|reflexivity].
  destruct eps_holds as (De & Fe & Ee).
  apply (ltb_value 53 1024) in E; try assumption.
  rewrite Ee in E. change (value (nsub F64 b a)) with (value (SFsub 53 1024 b a)) in E. rewrite Es in E.
  assert (L : rnd 53 1024 (value b - value a) <= bpow radix2 (-52)); [|lra].
  change (round radix2 (FLT_exp (3 - 1024 - 53) 53) ZnearestE (value b - value a) <= bpow radix2 (-52)).
  apply round_N_le_midp; [apply FLT_exp_valid; reflexivity| |].
  - apply generic_format_bpow. cbv. discriminate.
  - rewrite succ_eq_pos by apply bpow_ge_0. rewrite ulp_bpow.
    change (FLT_exp (3 - 1024 - 53) 53 (-52 + 1))%Z with (-104)%Z.
    assert (bpow radix2 (-104) = 2 * bpow radix2 (-105)).
    { change (-104)%Z with (1 + -105)%Z. rewrite bpow_plus. reflexivity. }
    lra.
Qed.

Section P.
  Variable f : F64 -> F64.

  Definition grain : R := bpow radix2 (-53).

  Definition spread (w : R) (s : sstate F64) : Prop :=
    exists A C B, holds (ss_a s) A /\ holds (ss_c s) C /\ holds (ss_b s) B /\
      0 <= A <= C /\ C <= B <= 1 /\ C - A <= grain + w /\ B - C <= grain + w.

  Lemma refine_returns : forall n fuel limit s,
    spread (bpow radix2 (Z.of_nat n - 107)) s -> (n < fuel)%nat ->
    exists s', dir_refine F64 f fuel limit s = Done s'.
  Proof.
    induction n as [|n IH]; intros fuel limit s (A & C & B & HA & HC & HB & H1 & H2 & H3 & H4) Hf;
      (destruct fuel as [|fuel]; [lia|]); cbn [dir_refine].
    - replace (nltb F64 (neps F64) (nsub F64 (ss_b s) (ss_a s))) with false.
      { rewrite andb_false_r. eexists; reflexivity. }
      symmetry. apply (narrow _ _ A B HA HB); try lra.
      change (Z.of_nat 0 - 107)%Z with (-107)%Z in *. unfold grain in *.
      assert (bpow radix2 (-52) = 2 * bpow radix2 (-53)) by (change (-52)%Z with (1 + -53)%Z; rewrite bpow_plus; reflexivity).
      assert (bpow radix2 (-106) = 2 * bpow radix2 (-107)) by (change (-106)%Z with (1 + -107)%Z; rewrite bpow_plus; reflexivity).
      assert (bpow radix2 (-105) = 2 * bpow radix2 (-106)) by (change (-105)%Z with (1 + -106)%Z; rewrite bpow_plus; reflexivity).
      pose proof (bpow_gt_0 radix2 (-107)). lra.
    - destruct (_ && _ && _); [|eexists; reflexivity].
      set (w := bpow radix2 (Z.of_nat n - 107)) in *.
      assert (Ew : bpow radix2 (Z.of_nat (S n) - 107) = 2 * w).
      { replace (Z.of_nat (S n) - 107)%Z with (1 + (Z.of_nat n - 107))%Z by lia. rewrite bpow_plus. reflexivity. }
      rewrite Ew in *. assert (Pw : 0 < w) by apply bpow_gt_0. clearbody w.
      assert (Eg : bpow radix2 (-54) = grain / 2).
      { unfold grain. change (-53)%Z with (1 + -54)%Z. rewrite bpow_plus. change (bpow radix2 1) with 2. lra. }
      assert (Pg : 0 < grain) by apply bpow_gt_0.
      destruct (mid_err _ _ A C HA HC) as (D & HD & BD & ED); [lra|lra|]. rewrite Eg in ED.
      apply Rabs_le_inv in ED.
      set (d := ndiv F64 (nadd F64 (ss_a s) (ss_c s)) (nofZ F64 2)) in *.
      set (sd := probe F64 f s d) in *.
      destruct (gt_eps F64 (ss_fc sd)); [eexists; reflexivity|].
      set (s1 := if nleb F64 (ss_fc sd) (ss_fc s) then _ else _).
      (* the left part is halved; the right part is unchanged, or halved *)
      assert (Hs1 : exists A1 C1 B1, holds (ss_a s1) A1 /\ holds (ss_c s1) C1 /\ holds (ss_b s1) B1 /\
                0 <= A1 <= C1 /\ C1 <= B1 <= 1 /\ C1 - A1 <= grain + w /\ B1 - C1 <= grain + 2 * w).
      { subst s1. destruct (nleb F64 (ss_fc sd) (ss_fc s)); cbn [ss_a ss_b ss_c].
        - exists D, C, B. repeat split; try apply HD; try apply HC; try apply HB; lra.
        - exists A, D, C. repeat split; try apply HD; try apply HC; try apply HA; lra. }
      clearbody s1. destruct Hs1 as (A1 & C1 & B1 & HA1 & HC1 & HB1 & G1 & G2 & G3 & G4).
      destruct (mid_err _ _ C1 B1 HC1 HB1) as (E & HE & BE & EE); [lra|lra|]. rewrite Eg in EE.
      apply Rabs_le_inv in EE.
      set (e := ndiv F64 (nadd F64 (ss_c s1) (ss_b s1)) (nofZ F64 2)) in *.
      set (se := probe F64 f s1 e) in *.
      destruct (gt_eps F64 (ss_fc se)); [eexists; reflexivity|].
      apply IH; [|lia].
      destruct (nltb F64 (ss_fc se) (ss_fc s1)); cbn [ss_a ss_b ss_c].
      + exists A1, C1, E. repeat split; try apply HA1; try apply HC1; try apply HE; lra.
      + exists C1, E, B1. repeat split; try apply HB1; try apply HC1; try apply HE; lra.
  Qed.

  Local Open Scope Z_scope.

  Lemma directed_returns : forall limit, 1 <= limit < 4294967296 ->
    exists fuel r, directed_search F64 f fuel limit = Done r.
  Proof.
    intros limit Hl. exists (Z.to_nat limit + 200)%nat.
    set (fuel := (Z.to_nat limit + 200)%nat).
    unfold directed_search. cbn [search_start].
    set (s := mkSS F64 _ _ _ _ _ _).
    destruct (le_eps F64 _ && le_eps F64 (ss_fc s)); [|eexists; reflexivity].
    assert (Hl' : limit <= max_scattered) by (unfold max_scattered; lia).
    destruct (dir_outer_spec F64 f fuel limit s Hl') as [s1 [E [R X]]];
      try reflexivity; try (cbn; lia).
    rewrite E. cbn [obind].
    destruct R as [R1 R2 R3 R4 R5].
    assert (Hc1 : exists C, holds (ss_c s1) C /\ (0 <= C <= 1)%R).
    { destruct R5 as [[Rc _]|[_ Rp]].
      - exists (1 / 2)%R. rewrite Rc. split; [exact mid_is|lra].
      - apply scat_ok. exact Rp. }
    destruct (is_zero F64 (ss_fc s1)); [eexists; reflexivity|].
    destruct Hc1 as [c1 [Ec1 Hc1]].
    destruct (around_ok (ss_c s1) c1 Ec1 Hc1) as (a & b & Ea & Eb1 & Ha & Hb).
    destruct (refine_returns 107 fuel limit (set_around F64 s1)) as [s2 E2].
    - unfold set_around. destruct (around F64 (ss_c s1)) as [x y]. cbn [set_range fst snd] in *.
      exists a, c1, b. change (Z.of_nat 107 - 107) with 0. change (bpow radix2 0) with 1%R.
      assert (0 < grain)%R by apply bpow_gt_0.
      repeat split; cbn [ss_a ss_b ss_c]; try apply Ea; try apply Ec1; try apply Eb1; lra.
    - unfold fuel. lia.
    - rewrite E2. eexists; reflexivity.
  Qed.

  Lemma search_returns : forall m limit, 1 <= limit < 4294967296 -> search_safe m limit ->
    exists fuel r, search F64 f m fuel limit = Done r.
  Proof.
    intros m limit Hl Hs. destruct m; cbn [search search_safe] in *.
    - destruct (binary_spec F64 f F64_order_ok (Z.to_nat limit + 3) limit) as [r [E _]];
        try (unfold max_limit; lia). eexists; eexists; exact E.
    - destruct (reverse_spec F64 f F64_order_ok (Z.to_nat limit + 3) limit) as [r [E _]];
        try (unfold max_limit; lia). eexists; eexists; exact E.
    - destruct (low_spec F64 f F64_order_ok (Z.to_nat limit + 3) limit) as [r [E _]];
        try lia; try exact Hs. eexists; eexists; exact E.
    - destruct (scattered_spec F64 f (Z.to_nat limit + 3) limit F64_order_ok) as [r [E _]];
        try (unfold max_scattered; lia). eexists; eexists; exact E.
    - apply directed_returns. exact Hl.
  Qed.

  (** ** The loop over regions *)
  Lemma loop_returns : forall tol maxeval, 0 <= maxeval < 4294967295 ->
    forall n counter integral stack tr acc,
    0 <= counter -> maxeval - counter < Z.of_nat n -> counter <= maxeval ->
    exists r, maq_loop F64 f (S (S n)) tol maxeval counter integral stack tr acc = Done r.
  Proof.
    intros tol maxeval Hm. induction n as [|n IH]; intros counter integral stack tr acc H0 Hn Hc; [lia|].
    remember (S (S n)) as k eqn:Ek. cbn [maq_loop].
    destruct stack as [|todo rest]; [eexists; reflexivity|].
    rewrite (u32_small (counter + 1)) by lia.
    destruct (maxeval <? counter + 1) eqn:E; [eexists; reflexivity|].
    apply Z.ltb_ge in E.
    destruct (nisnan F64 _); [eexists; reflexivity|].
    destruct (nisnan F64 _); [eexists; reflexivity|].
    subst k.
    destruct (_ || _); [apply IH; lia|].
    destruct (nltb F64 _ _); apply IH; lia.
  Qed.

  Lemma loop_returns_any : forall tol maxeval counter integral stack tr acc,
    0 <= maxeval < 4294967295 -> 0 <= counter < 4294967296 ->
    exists fuel r, maq_loop F64 f fuel tol maxeval counter integral stack tr acc = Done r.
  Proof.
    intros tol maxeval counter integral stack tr acc Hm Hc.
    destruct (Z_le_gt_dec counter maxeval) as [L|L].
    { eexists. apply (loop_returns tol maxeval Hm (Z.to_nat (maxeval - counter + 1))); lia. }
    exists (S (S (S (Z.to_nat (maxeval + 1))))).
    remember (S (S (Z.to_nat (maxeval + 1)))) as k eqn:Ek. cbn [maq_loop].
    destruct stack as [|todo rest]; [eexists; reflexivity|].
    destruct (maxeval <? u32 (counter + 1)) eqn:E; [eexists; reflexivity|].
    apply Z.ltb_ge in E.
    assert (E0 : u32 (counter + 1) = 0).
    { destruct (Z.eq_dec counter 4294967295) as [-> | Hne]; [reflexivity|].
      rewrite u32_small in E by lia. lia. }
    rewrite E0.
    destruct (nisnan F64 _); [eexists; reflexivity|].
    destruct (nisnan F64 _); [eexists; reflexivity|].
    subst k.
    destruct (_ || _); [apply loop_returns; lia|].
    destruct (nltb F64 _ _); apply loop_returns; lia.
  Qed.

  Lemma MAQ_returns : forall s : settings F64,
    1 <= set_search_limit s < 4294967296 -> 1 <= set_eval_limit s < 4294967295 ->
    search_safe (set_method s) (set_search_limit s) ->
    exists r n, forall fuel, (n <= fuel)%nat -> MAQ F64 f fuel s = Done r.
  Proof.
    intros s Hl He Hs.
    assert (G : exists n r, MAQ F64 f n s = Done r).
    { destruct (search_returns _ _ Hl Hs) as (n1 & sr & E1).
      destruct (sr_range sr) as [[a b]|] eqn:Er.
      2:{ exists n1. unfold MAQ. rewrite E1. cbn [obind]. rewrite Er. eexists; reflexivity. }
      destruct (nisnan F64 a) eqn:En.
      { exists n1. unfold MAQ. rewrite E1. cbn [obind]. rewrite Er, En. eexists; reflexivity. }
      destruct (loop_returns_any (set_tolerance s) (set_eval_limit s) (u32 (sr_evals sr + 3)) (nofZ F64 0)
                  [mkRegion F64 a b (ndiv F64 (nadd F64 a b) (nofZ F64 2)) (eval_left F64 f a) (eval_at F64 f b)
                     (eval_at F64 f (ndiv F64 (nadd F64 a b) (nofZ F64 2)))
                     (quad F64 a b (ndiv F64 (nadd F64 a b) (nofZ F64 2)) (eval_left F64 f a) (eval_at F64 f b)
                        (eval_at F64 f (ndiv F64 (nadd F64 a b) (nofZ F64 2))))]
                  (x_from_t F64 (ndiv F64 (nadd F64 a b) (nofZ F64 2)) :: x_from_t F64 b :: x_from_t F64 a :: sr_trace sr) [])
        as (n2 & r2 & E2).
      { lia. }
      { apply Z.mod_pos_bound. reflexivity. }
      exists (n1 + n2)%nat. unfold MAQ.
      rewrite (search_fuel F64 f (set_method s) (set_search_limit s) n1 (n1 + n2) sr ltac:(lia) E1).
      cbn [obind]. rewrite Er, En. unfold integrate_range.
      destruct (nisnan F64 (eval_left F64 f a)); [eexists; reflexivity|].
      destruct (nisnan F64 (eval_at F64 f b)); [eexists; reflexivity|].
      destruct (nisnan F64 (eval_at F64 f (ndiv F64 (nadd F64 a b) (nofZ F64 2)))); [eexists; reflexivity|].
      rewrite (maq_loop_fuel F64 f _ _ n2 (n1 + n2) _ _ _ _ _ r2 ltac:(lia) E2).
      cbn [obind]. destruct r2 as [[[[ex ig] cn] t2] ac]. eexists; reflexivity. }
    destruct G as (n & r & E). exists r, n. intros fuel Hf. apply (MAQ_fuel F64 f s n fuel r Hf E).
  Qed.
End P.
