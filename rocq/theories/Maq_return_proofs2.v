(** * When an integration does not return: the limits with which the subdividing searches
      overflow, and the evaluation limit that is never exceeded *)
From Coq Require Import ZArith List Bool Lia.
From Coq Require Import Floats.SpecFloat.
From Verif Require Import Num Maq Maq_spec Maq_search_proofs Maq_search_proofs2 Maq_proofs
  Maq_extreme_proofs Maq_return_proofs.
Import ListNotations.
Local Open Scope Z_scope.

Section Overflow.
  Context (N : Num).
  Hypothesis HO : order_ok N.
  Variable z : N.
  Hypothesis Hle : le_eps N z = true.
  Hypothesis Hgt : gt_eps N z = false.
  Let f : N -> N := fun _ => z.
  Variables cpt apt bpt : Z -> Z -> N.

  Lemma full_pass : forall m fuel i hi n s,
    (m < fuel)%nat -> 0 < i -> i + 2 * Z.of_nat m = hi + 1 -> hi <= 1073741824 ->
    0 <= ss_ev s -> ss_ev s + Z.of_nat m < 4294967296 -> ss_fc s = z ->
    exists s', sub_for N f cpt apt bpt fuel i hi n s = Done s' /\
               ss_ev s' = ss_ev s + Z.of_nat m /\ ss_fc s' = z.
  Proof.
    induction m as [|m IH]; intros fuel i hi n s Hf Hi Hn Hb H0 Hev Hfc;
      (destruct fuel as [|fuel]; [lia|]); cbn [sub_for].
    - replace (i <? hi) with false by (symmetry; apply Z.ltb_ge; lia).
      exists s. repeat split; try assumption; lia.
    - replace (i <? hi) with true by (symmetry; apply Z.ltb_lt; lia).
      cbn [probe ss_fc]. unfold f at 1. rewrite Hgt.
      replace (int_max <? i + 2) with false by (symmetry; apply Z.ltb_ge; unfold int_max; lia).
      destruct (IH fuel (i + 2) hi n (probe N f s (cpt i n))) as [s' [E [E2 E3]]]; try lia.
      + cbn [probe ss_ev]. apply Z.mod_pos_bound. reflexivity.
      + cbn [probe ss_ev]. unfold u32. rewrite Z.mod_small by lia. lia.
      + reflexivity.
      + exists s'. split; [exact E|]. split; [|exact E3].
        rewrite E2. cbn [probe ss_ev]. unfold u32. rewrite Z.mod_small by lia. lia.
  Qed.

  Lemma broken_pass : forall m fuel i n s,
    (m < fuel)%nat -> 0 < i -> i + 2 * Z.of_nat m = 2147483647 ->
    sub_for N f cpt apt bpt fuel i 2147483648 n s = Ub.
  Proof.
    induction m as [|m IH]; intros fuel i n s Hf Hi Hn;
      (destruct fuel as [|fuel]; [lia|]); cbn [sub_for].
    - replace (i <? 2147483648) with true by (symmetry; apply Z.ltb_lt; lia).
      cbn [probe ss_fc]. unfold f at 1. rewrite Hgt.
      replace (int_max <? i + 2) with true by (symmetry; apply Z.ltb_lt; unfold int_max; lia).
      reflexivity.
    - replace (i <? 2147483648) with true by (symmetry; apply Z.ltb_lt; lia).
      cbn [probe ss_fc]. unfold f at 1. rewrite Hgt.
      replace (int_max <? i + 2) with false by (symmetry; apply Z.ltb_ge; unfold int_max; lia).
      apply IH; lia.
  Qed.

  (** A loop whose rounds have [c], [2c], [4c], ... probes reaches the round that overflows. *)
  Variables lo hi : Z -> Z.

  Lemma rounds_ub : forall m fuel limit base c n s,
    (m < fuel)%nat -> 0 < c -> 0 < n -> 0 <= base ->
    (forall j : nat, (j <= m)%nat -> let q := 2 ^ Z.of_nat j in
       0 < lo (n * q) /\ lo (n * q) mod 2 = 1 /\
       lo (n * q) + 2 * (c * q) = hi (n * q) + 1 /\ c * q <= n * q - 2) ->
    hi (n * 2 ^ Z.of_nat m) = 2147483648 ->
    (forall j : nat, (j < m)%nat -> hi (n * 2 ^ Z.of_nat j) <= 1073741824) ->
    base + c * 2 ^ Z.of_nat m < limit -> limit < 4294967296 ->
    ss_ev s = base + c -> ss_fc s = z ->
    sub_while N f cpt apt bpt fuel lo hi limit n s = Ub.
  Proof.
    induction m as [|m IH]; intros fuel limit base c n s Hf Hc Hn Hb Hq Hlast Hbefore Hl Hl2 Hev Hfc;
      (destruct fuel as [|fuel]; [lia|]); cbn [sub_while].
    - destruct (Hq 0%nat ltac:(lia)) as (Q1 & Q2 & Q3 & Q4).
      change (2 ^ Z.of_nat 0) with 1 in *. rewrite !Z.mul_1_r in *.
      rewrite Hfc, Hle, Hev. replace (base + c <? limit) with true by (symmetry; apply Z.ltb_lt; lia).
      cbn [andb]. rewrite Hlast in *.
      rewrite (broken_pass (Z.to_nat (c - 1))); [reflexivity| |exact Q1|].
      + apply Z2Nat.inj_lt; lia.
      + rewrite Z2Nat.id by lia. lia.
    - destruct (Hq 0%nat ltac:(lia)) as (Q1 & Q2 & Q3 & Q4).
      change (2 ^ Z.of_nat 0) with 1 in *. rewrite !Z.mul_1_r in *.
      pose proof (Hbefore 0%nat ltac:(lia)) as Hh. change (2 ^ Z.of_nat 0) with 1 in Hh. rewrite Z.mul_1_r in Hh.
      assert (P2 : 1 <= 2 ^ Z.of_nat m) by (apply (Z.pow_le_mono_r 2 0); lia).
      assert (Ep : 2 ^ Z.of_nat (S m) = 2 * 2 ^ Z.of_nat m) by (rewrite Nat2Z.inj_succ, Z.pow_succ_r by lia; reflexivity).
      rewrite Ep in *.
      assert (Hcl : base + 2 * c < limit) by nia.
      rewrite Hfc, Hle, Hev. replace (base + c <? limit) with true by (symmetry; apply Z.ltb_lt; lia).
      cbn [andb].
      destruct (full_pass (Z.to_nat c) (Z.to_nat n) (lo n) (hi n) n s) as [s' [E [E2 E3]]];
        try assumption; try lia.
      rewrite E. cbn [obind].
      apply (IH fuel limit base (c * 2) (n * 2) s'); try lia; try assumption.
      + intros j Hj. pose proof (Hq (S j) ltac:(lia)) as HS. cbv zeta in *.
        rewrite Nat2Z.inj_succ, Z.pow_succ_r in HS by lia. rewrite !Z.mul_assoc in *. exact HS.
      + rewrite <- Z.mul_assoc. exact Hlast.
      + intros j Hj. pose proof (Hbefore (S j) ltac:(lia)) as HS.
        rewrite Nat2Z.inj_succ, Z.pow_succ_r, Z.mul_assoc in HS by lia. exact HS.
  Qed.

  Lemma rounds_done : forall m fuel limit base c n s,
    (m < fuel)%nat -> 0 < c -> 0 < n -> 0 <= base ->
    (forall j : nat, (j < m)%nat -> let q := 2 ^ Z.of_nat j in
       0 < lo (n * q) /\ lo (n * q) + 2 * (c * q) = hi (n * q) + 1 /\ c * q <= n * q - 2 /\
       hi (n * q) <= 1073741824 /\ base + c * q < limit) ->
    limit <= base + c * 2 ^ Z.of_nat m -> limit < 2147483648 ->
    ss_ev s = base + c -> ss_fc s = z ->
    exists s', sub_while N f cpt apt bpt fuel lo hi limit n s = Done s' /\
      ss_ev s' = base + c * 2 ^ Z.of_nat m /\ ss_fc s' = z.
  Proof.
    induction m as [|m IH]; intros fuel limit base c n s Hf Hc Hn Hb Hq Hl Hl2 Hev Hfc;
      (destruct fuel as [|fuel]; [lia|]); cbn [sub_while].
    - change (2 ^ Z.of_nat 0) with 1 in *. rewrite !Z.mul_1_r in *.
      rewrite Hev. replace (base + c <? limit) with false by (symmetry; apply Z.ltb_ge; lia).
      exists s. split; [reflexivity|]. split; [exact Hev|exact Hfc].
    - destruct (Hq 0%nat ltac:(lia)) as (Q1 & Q2 & Q3 & Q4 & Q5).
      change (2 ^ Z.of_nat 0) with 1 in *. rewrite !Z.mul_1_r in *.
      rewrite Hfc, Hle, Hev. replace (base + c <? limit) with true by (symmetry; apply Z.ltb_lt; lia).
      cbn [andb].
      destruct (full_pass (Z.to_nat c) (Z.to_nat n) (lo n) (hi n) n s) as [s' [E [E2 E3]]];
        try assumption; try lia.
      rewrite E. cbn [obind].
      assert (Ep : 2 ^ Z.of_nat (S m) = 2 * 2 ^ Z.of_nat m) by (rewrite Nat2Z.inj_succ, Z.pow_succ_r by lia; reflexivity).
      rewrite Ep in *.
      destruct (IH fuel limit base (c * 2) (n * 2) s') as [s2 [F1 [F2 F3]]]; try lia; try assumption.
      + intros j Hj. pose proof (Hq (S j) ltac:(lia)) as HS. cbv zeta in *.
        rewrite Nat2Z.inj_succ, Z.pow_succ_r in HS by lia. rewrite !Z.mul_assoc in *. exact HS.
      + exists s2. split; [exact F1|]. split; [|exact F3]. rewrite F2. lia.
  Qed.
End Overflow.

Section Constant.
  Let f : F64 -> F64 := fun _ => S754_zero false.

  Lemma pow_div : forall j : nat, 4 * 2 ^ Z.of_nat j / 2 = 2 * 2 ^ Z.of_nat j.
  Proof. intros j. replace (4 * 2 ^ Z.of_nat j) with (2 * 2 ^ Z.of_nat j * 2) by lia. apply Z.div_mul. discriminate. Qed.
  Lemma pow_le : forall j m : nat, (j <= m)%nat -> 1 <= 2 ^ Z.of_nat j <= 2 ^ Z.of_nat m.
  Proof.
    intros j m H. split; [apply (Z.pow_le_mono_r 2 0); lia|apply Z.pow_le_mono_r; lia].
  Qed.

  Lemma all_ub : forall cpt apt bpt fuel limit (s : sstate F64), (40 <= fuel)%nat -> 1073741824 < limit < 4294967296 ->
    ss_ev s = 2 -> ss_fc s = S754_zero false ->
    sub_while F64 f cpt apt bpt fuel (fun _ => 1) (fun n => n) limit 4 s = Ub.
  Proof.
    intros cpt apt bpt fuel limit s Hf Hl Hev Hfc.
    apply (rounds_ub F64 (S754_zero false) eq_refl eq_refl cpt apt bpt (fun _ => 1) (fun n => n) 29 fuel limit 0 2 4 s);
      try lia; try assumption.
    all: try (intros j Hj; cbv zeta; pose proof (pow_le j 29 ltac:(lia)); split; [lia|]; split; [reflexivity|]; split; lia).
    all: try (intros j Hj; pose proof (pow_le j 28 ltac:(lia)) as H; change (2 ^ Z.of_nat 28) with 268435456 in H; lia).
    all: try (change (2 ^ Z.of_nat 29) with 536870912; lia).
  Qed.

  Lemma phase1 : forall cpt apt bpt fuel limit (m : nat) (s : sstate F64), (40 <= fuel)%nat -> (1 <= m <= 30)%nat ->
    1 + 2 ^ Z.of_nat (m - 1) < limit <= 1 + 2 ^ Z.of_nat m ->
    ss_ev s = 2 -> ss_fc s = S754_zero false ->
    exists s', sub_while F64 f cpt apt bpt fuel (fun _ => 1) (fun n => n / 2) limit 4 s = Done s' /\
      ss_ev s' = 1 + 2 ^ Z.of_nat m /\ ss_fc s' = S754_zero false.
  Proof.
    intros cpt apt bpt fuel limit m s Hf Hm Hl Hev Hfc.
    pose proof (pow_le m 30 ltac:(lia)) as Hm30. change (2 ^ Z.of_nat 30) with 1073741824 in Hm30.
    destruct (rounds_done F64 (S754_zero false) eq_refl eq_refl cpt apt bpt (fun _ => 1) (fun n => n / 2) m fuel limit 1 1 4 s)
      as [s' [E1 [E2 E3]]]; try lia; try assumption.
    - intros j Hj. cbv zeta. rewrite pow_div.
      pose proof (pow_le j (m - 1) ltac:(lia)) as H. pose proof (pow_le (m - 1) 29 ltac:(lia)) as H'.
      change (2 ^ Z.of_nat 29) with 536870912 in H'. lia.
    - exists s'. split; [exact E1|]. split; [lia|exact E3].
  Qed.

  Lemma low_ub : forall fuel limit, (40 <= fuel)%nat -> 1073741824 < limit < 4294967296 ->
    limit < 1073741828 \/ 1610612736 < limit ->
    low_first_reverse_binary_subdivision F64 f fuel limit = Ub.
  Proof.
    intros fuel limit Hf Hl Hs. unfold low_first_reverse_binary_subdivision, search_start.
    change (le_eps F64 (f (x_from_t F64 (nofZ F64 1))) && _) with true. cbv beta iota zeta.
    set (s := mkSS F64 _ _ _ _ _ _).
    assert (Hev : ss_ev s = 2) by reflexivity. assert (Hfc : ss_fc s = S754_zero false) by reflexivity. clearbody s.
    assert (D : 2 * (limit / 2) <= limit < 2 * (limit / 2) + 2)
      by (pose proof (Z.div_mod limit 2 ltac:(discriminate)); pose proof (Z.mod_pos_bound limit 2 ltac:(lia)); lia).
    generalize dependent (limit / 2). intros l1 D.
    assert (Second : forall (m : nat) (s1 : sstate F64), (29 <= m <= 30)%nat -> 2 ^ Z.of_nat m + 536870912 < limit ->
      ss_ev s1 = 1 + 2 ^ Z.of_nat m -> ss_fc s1 = S754_zero false ->
      sub_while F64 f (rev_c F64) (rev_a F64) (rev_b F64) fuel (fun n => 1 + n / 2) (fun n => n) limit 4 s1 = Ub).
    { intros m s1 Hm HL E1 E2.
      apply (rounds_ub F64 (S754_zero false) eq_refl eq_refl (rev_c F64) (rev_a F64) (rev_b F64)
               (fun n => 1 + n / 2) (fun n => n) 29 fuel limit (2 ^ Z.of_nat m) 1 4 s1);
        try lia; try assumption.
      all: try (intros j Hj; cbv zeta; rewrite pow_div; pose proof (pow_le j 29 ltac:(lia)); split; [lia|]; split; [|lia];
        rewrite Z.mul_comm, Z.mod_add by discriminate; reflexivity).
      all: try (intros j Hj; pose proof (pow_le j 28 ltac:(lia)) as H; change (2 ^ Z.of_nat 28) with 268435456 in H; lia).
      all: try (change (2 ^ Z.of_nat 29) with 536870912; lia). }
    destruct (Z_lt_le_dec 1073741825 l1) as [L|L].
    - assert (P : sub_while F64 f (rev_c F64) (rev_a F64) (rev_b F64) fuel (fun _ => 1) (fun n => n / 2) l1 4 s = Ub).
      { apply (rounds_ub F64 (S754_zero false) eq_refl eq_refl (rev_c F64) (rev_a F64) (rev_b F64)
                 (fun _ => 1) (fun n => n / 2) 30 fuel l1 1 1 4 s); try reflexivity; try lia; try assumption.
        all: try (intros j Hj; cbv zeta; rewrite pow_div; pose proof (pow_le j 30 ltac:(lia)); split; [lia|]; split; [reflexivity|]; lia).
        all: try (intros j Hj; rewrite pow_div; pose proof (pow_le j 29 ltac:(lia)) as H; change (2 ^ Z.of_nat 29) with 536870912 in H; lia).
        all: try (change (2 ^ Z.of_nat 30) with 1073741824; lia). }
      rewrite P. reflexivity.
    - destruct Hs as [Hs|Hs].
      + destruct (phase1 (rev_c F64) (rev_a F64) (rev_b F64) fuel l1 29 s) as [s1 [E1 [E2 E3]]];
          try assumption; try lia.
        { change (2 ^ Z.of_nat 29) with 536870912. change (2 ^ Z.of_nat (29 - 1)) with 268435456. lia. }
        rewrite E1. cbn [obind]. rewrite (Second 29%nat s1); try assumption; try lia; try reflexivity.
      + destruct (phase1 (rev_c F64) (rev_a F64) (rev_b F64) fuel l1 30 s) as [s1 [E1 [E2 E3]]];
          try assumption; try lia.
        { change (2 ^ Z.of_nat 30) with 1073741824. change (2 ^ Z.of_nat (30 - 1)) with 536870912. lia. }
        rewrite E1. cbn [obind]. rewrite (Second 30%nat s1); try assumption; try lia; try reflexivity.
  Qed.

  Lemma unsafe_overflows : forall fuel (s : settings F64), (40 <= fuel)%nat ->
    1 <= set_search_limit s < 4294967296 -> ~ search_safe (set_method s) (set_search_limit s) ->
    MAQ F64 f fuel s = Ub.
  Proof.
    intros fuel s Hf Hl Hs. unfold MAQ.
    replace (search F64 f (set_method s) fuel (set_search_limit s)) with (@Ub (search_result F64)); [reflexivity|].
    symmetry. destruct (set_method s); cbn [search search_safe] in *; try (exfalso; apply Hs; exact Logic.I).
    - unfold binary_subdivision, search_start.
      change (le_eps F64 (f (x_from_t F64 (nofZ F64 1))) && _) with true. cbv beta iota zeta.
      rewrite all_ub; try reflexivity; try assumption. lia.
    - unfold reverse_binary_subdivision, search_start.
      change (le_eps F64 (f (x_from_t F64 (nofZ F64 1))) && _) with true. cbv beta iota zeta.
      rewrite all_ub; try reflexivity; try assumption. lia.
    - apply low_ub; [exact Hf|lia|lia].
  Qed.
End Constant.

(** ** The evaluation limit that cannot be exceeded *)
Lemma never_returns : forall fuel (s : settings F64), set_eval_limit s = 4294967295 ->
  MAQ F64 (fun _ => S754_infinity false) fuel s = OutOfFuel.
Proof.
  intros fuel s He. unfold MAQ.
  assert (E : exists tr, search F64 (fun _ => S754_infinity false) (set_method s) fuel (set_search_limit s) =
    Done (mkSR F64 (Some (nofZ F64 0, nofZ F64 1)) 2 tr)).
  { destruct (set_method s); eexists; reflexivity. }
  destruct E as [tr E]. rewrite E. cbn [obind sr_range sr_evals sr_trace].
  change (nisnan F64 (nofZ F64 0)) with false. cbn iota.
  unfold integrate_range.
  change (nisnan F64 (eval_left F64 (fun _ => S754_infinity false) (nofZ F64 0))) with false.
  change (nisnan F64 (eval_at F64 (fun _ => S754_infinity false) (nofZ F64 1))) with false.
  change (nisnan F64 (eval_at F64 (fun _ => S754_infinity false) (ndiv F64 (nadd F64 (nofZ F64 0) (nofZ F64 1)) (nofZ F64 2))))
    with false.
  cbn iota.
  match goal with |- context [maq_loop F64 ?f fuel ?t ?m ?c ?i (?r :: ?l) ?tr ?acc] =>
    change (maq_loop F64 f fuel t m c i (r :: l) tr acc) with
      (maq_loop F64 f fuel t m c i (Nat.iter 0 right_half first_region :: l) tr acc);
    rewrite (loop_forever fuel 0 t m c i l tr acc) by (rewrite He; lia)
  end.
  reflexivity.
Qed.

(** ** Exactly when every integration returns *)
Lemma returns_exactly : forall s : settings F64,
  1 <= set_search_limit s < 2 ^ 32 -> 1 <= set_eval_limit s < 2 ^ 32 ->
  ((forall f, exists r n, forall fuel, (n <= fuel)%nat -> MAQ F64 f fuel s = Done r) <->
   search_safe (set_method s) (set_search_limit s) /\ set_eval_limit s < 2 ^ 32 - 1).
Proof.
  change (2 ^ 32) with 4294967296. change (4294967296 - 1) with 4294967295.
  intros s Hl He. split.
  - intros H. split.
    + assert (D : search_safe (set_method s) (set_search_limit s) \/ ~ search_safe (set_method s) (set_search_limit s))
        by (destruct (set_method s); cbn [search_safe]; lia || (left; exact Logic.I)).
      destruct D as [D|D]; [exact D|exfalso].
      destruct (H (fun _ => S754_zero false)) as (r & n & E).
      pose proof (E (n + 40)%nat ltac:(lia)) as E1.
      rewrite (unsafe_overflows (n + 40) s ltac:(lia) Hl D) in E1. discriminate.
    + destruct (Z_lt_le_dec (set_eval_limit s) 4294967295) as [L|L]; [exact L|exfalso].
      destruct (H (fun _ => S754_infinity false)) as (r & n & E).
      pose proof (E n ltac:(lia)) as E1. rewrite never_returns in E1 by lia. discriminate.
  - intros [Hs Hm] f. apply MAQ_returns; [exact Hl|lia|exact Hs].
Qed.
