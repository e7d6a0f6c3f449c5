(** * Extreme limits: signed overflow in the subdivision searches, and a counter that
      wraps before it can exceed the evaluation limit *)
From Coq Require Import ZArith List Bool Lia.
From Coq Require Import Floats.SpecFloat.
From Verif Require Import Num Maq Maq_spec Maq_search_proofs Maq_proofs.
Import ListNotations.
Local Open Scope Z_scope.

(** ** Overflow of the loop variable *)
Section Overflow.
  Context (N : Num).
  Variable z : N.
  Hypothesis Hle : le_eps N z = true.
  Hypothesis Hgt : gt_eps N z = false.
  Let f : N -> N := fun _ => z.
  Variables cpt apt bpt : Z -> Z -> N.

  (** A complete pass over the odd numbers below [n]. *)
  Lemma pass : forall m fuel i n s,
    (m < fuel)%nat -> 0 < i -> i + 2 * Z.of_nat m = n + 1 -> n <= 2 ^ 30 ->
    0 <= ss_ev s -> ss_ev s + Z.of_nat m < 2 ^ 32 -> ss_fc s = z ->
    exists s', sub_for N f cpt apt bpt fuel i n n s = Done s' /\
               ss_ev s' = ss_ev s + Z.of_nat m /\ ss_fc s' = z.
  Proof.
    change (2 ^ 30) with 1073741824. change (2 ^ 32) with 4294967296.
    induction m as [|m IH]; intros fuel i n s Hf Hi Hn Hb H0 Hev Hfc;
      (destruct fuel as [|fuel]; [lia|]); cbn [sub_for].
    - replace (i <? n) with false by (symmetry; apply Z.ltb_ge; lia).
      exists s. repeat split; try assumption; lia.
    - replace (i <? n) with true by (symmetry; apply Z.ltb_lt; lia).
      cbn [probe ss_fc]. unfold f at 1. rewrite Hgt.
      replace (int_max <? i + 2) with false by (symmetry; apply Z.ltb_ge; unfold int_max; lia).
      destruct (IH fuel (i + 2) n (probe N f s (cpt i n))) as [s' [E [E2 E3]]]; try lia.
      + cbn [probe ss_ev]. apply Z.mod_pos_bound. reflexivity.
      + cbn [probe ss_ev]. unfold u32. rewrite Z.mod_small by lia. lia.
      + reflexivity.
      + exists s'. split; [exact E|]. split; [|exact E3].
        rewrite E2. cbn [probe ss_ev]. unfold u32. rewrite Z.mod_small by lia. lia.
  Qed.

  (** The pass with 2^31 intervals overflows. *)
  Lemma last_pass : forall m fuel i s,
    (m < fuel)%nat -> 0 < i -> i + 2 * Z.of_nat m = 2 ^ 31 - 1 ->
    sub_for N f cpt apt bpt fuel i (2 ^ 31) (2 ^ 31) s = Ub.
  Proof.
    change (2 ^ 31) with 2147483648.
    induction m as [|m IH]; intros fuel i s Hf Hi Hn;
      (destruct fuel as [|fuel]; [lia|]); cbn [sub_for].
    - replace (i <? 2147483648) with true by (symmetry; apply Z.ltb_lt; lia).
      cbn [probe ss_fc]. unfold f at 1. rewrite Hgt.
      replace (int_max <? i + 2) with true by (symmetry; apply Z.ltb_lt; unfold int_max; lia).
      reflexivity.
    - replace (i <? 2147483648) with true by (symmetry; apply Z.ltb_lt; lia).
      cbn [probe ss_fc]. unfold f at 1. rewrite Hgt.
      replace (int_max <? i + 2) with false by (symmetry; apply Z.ltb_ge; unfold int_max; lia).
      apply IH; lia.
  Qed.

  Lemma while_ub : forall m fuel limit (k : nat) s,
    (m < fuel)%nat -> (k + m = 31)%nat -> (2 <= k)%nat -> 2 ^ 30 < limit ->
    ss_ev s = 2 ^ Z.of_nat (k - 1) -> ss_fc s = z ->
    sub_while N f cpt apt bpt fuel (fun _ => 1) (fun n => n) limit (2 ^ Z.of_nat k) s = Ub.
  Proof.
    induction m as [|m IH]; intros fuel limit k s Hf Hk Hk2 Hl Hev Hfc;
      (destruct fuel as [|fuel]; [lia|]); cbn [sub_while].
    - assert (k = 31)%nat by lia. subst k. rewrite Hfc, Hle.
      change (2 ^ Z.of_nat (31 - 1)) with (2 ^ 30) in Hev. rewrite Hev.
      replace (2 ^ 30 <? limit) with true by (symmetry; apply Z.ltb_lt; exact Hl).
      cbn [andb]. change (2 ^ Z.of_nat 31) with (2 ^ 31).
      rewrite (last_pass (Z.to_nat (2 ^ 30 - 1))); [reflexivity| |reflexivity|].
      + apply Z2Nat.inj_lt; reflexivity || discriminate.
      + rewrite Z2Nat.id by discriminate. reflexivity.
    - assert (Hp : 2 ^ Z.of_nat k = 2 * 2 ^ Z.of_nat (k - 1)).
      { replace (Z.of_nat k) with (Z.succ (Z.of_nat (k - 1))) by lia. apply Z.pow_succ_r. lia. }
      assert (Hpos : 0 < 2 ^ Z.of_nat (k - 1)) by (apply Z.pow_pos_nonneg; lia).
      assert (Hb : 2 ^ Z.of_nat (k - 1) <= 2 ^ 29) by (apply Z.pow_le_mono_r; lia).
      change (2 ^ 29) with 536870912 in Hb.
      rewrite Hfc, Hle, Hev.
      replace (2 ^ Z.of_nat (k - 1) <? limit) with true
        by (symmetry; apply Z.ltb_lt; change (2 ^ 30) with 1073741824 in Hl; lia).
      cbn [andb].
      destruct (pass (Z.to_nat (2 ^ Z.of_nat (k - 1))) (Z.to_nat (2 ^ Z.of_nat k)) 1 (2 ^ Z.of_nat k) s)
        as [s' [E [E2 E3]]].
      + apply Z2Nat.inj_lt; lia.
      + lia.
      + rewrite Z2Nat.id by lia. lia.
      + change (2 ^ 30) with 1073741824. lia.
      + lia.
      + rewrite Z2Nat.id by lia. change (2 ^ 32) with 4294967296. lia.
      + exact Hfc.
      + rewrite E. cbn [obind].
        replace (2 ^ Z.of_nat k * 2) with (2 ^ Z.of_nat (S k)).
        2:{ rewrite Nat2Z.inj_succ, Z.pow_succ_r by lia. lia. }
        apply IH; try lia; try assumption.
        rewrite E2, Hev, Z2Nat.id by lia.
        replace (S k - 1)%nat with k by lia. lia.
  Qed.
End Overflow.

(** A search for a function that is zero everywhere, with a limit above 2^30. *)
Lemma binary_overflow : forall fuel limit, (40 <= fuel)%nat -> 2 ^ 30 < limit ->
  binary_subdivision F64 (fun _ => S754_zero false) fuel limit = Ub.
Proof.
  intros fuel limit Hf Hl. unfold binary_subdivision, search_start.
  change (le_eps F64 (S754_zero false) && _) with true.
  cbn iota. change 4 with (2 ^ Z.of_nat 2).
  rewrite (while_ub F64 (S754_zero false) eq_refl eq_refl _ _ _ 29); try reflexivity; try lia.
Qed.

Lemma MAQ_overflow : forall fuel (s : settings F64), (40 <= fuel)%nat ->
  set_method s = BINARY_SUBDIVISION -> 2 ^ 30 < set_search_limit s ->
  MAQ F64 (fun _ => S754_zero false) fuel s = Ub.
Proof.
  intros fuel s Hf Hm Hl. unfold MAQ. rewrite Hm. cbn [search].
  rewrite (binary_overflow fuel _ Hf Hl). reflexivity.
Qed.

(** ** A counter that wraps *)
Section Wrap.
  Let inf : F64 := S754_infinity false.
  Let f : F64 -> F64 := fun _ => inf.

  (** The right half of a region, as computed by the loop. *)
  Definition right_half (r : region F64) : region F64 :=
    let e := ndiv F64 (nadd F64 (rg_b r) (rg_c r)) (nofZ F64 2) in
    mkRegion F64 (rg_c r) (rg_b r) e (rg_fc r) (rg_fb r) (eval_at F64 f e)
             (quad F64 (rg_c r) (rg_b r) e (rg_fc r) (rg_fb r) (eval_at F64 f e)).

  (** The loop splits [r] and continues with its right half, whatever the tolerance. *)
  Definition splits_right (r : region F64) : bool :=
    let a := rg_a r in let b := rg_b r in let c := rg_c r in
    let d := ndiv F64 (nadd F64 a c) (nofZ F64 2) in
    let e := ndiv F64 (nadd F64 b c) (nofZ F64 2) in
    let fd := eval_at F64 f d in
    let fe := eval_at F64 f e in
    let r2 := quad F64 a c d (rg_fa r) (rg_fc r) fd in
    let r3 := quad F64 c b e (rg_fc r) (rg_fb r) fe in
    let q2 := nadd F64 r2 r3 in
    negb (nisnan F64 fd) && negb (nisnan F64 fe)
    && nisnan F64 (nabs F64 (nsub F64 q2 (rg_r r)))
    && negb (nltb F64 (nabs F64 r3) (nabs F64 r2)).

  Lemma nan_leb : forall x y : F64, nisnan F64 x = true -> nleb F64 x y = false.
  Proof. intros x y H. destruct x; try discriminate. reflexivity. Qed.

  Lemma loop_right : forall fuel tol maxeval counter integral r rest tr acc,
    splits_right r = true -> 4294967295 <= maxeval ->
    exists tr' rest',
      maq_loop F64 f (S fuel) tol maxeval counter integral (r :: rest) tr acc =
      maq_loop F64 f fuel tol maxeval (u32 (counter + 1)) integral (right_half r :: rest') tr' acc.
  Proof.
    intros fuel tol maxeval counter integral r rest tr acc Hs Hm.
    unfold splits_right in Hs. rewrite !andb_true_iff, !negb_true_iff in Hs.
    destruct Hs as [[[H1 H2] H3] H4].
    cbn [maq_loop].
    replace (maxeval <? u32 (counter + 1)) with false.
    2:{ symmetry. apply Z.ltb_ge. unfold u32.
        pose proof (Z.mod_pos_bound (counter + 1) 4294967296 ltac:(lia)). lia. }
    rewrite H1, H2, !(nan_leb _ _ H3), H4. cbn [orb].
    eexists; eexists. reflexivity.
  Qed.

  Definition first_region : region F64 :=
    let a := nofZ F64 0 in let b := nofZ F64 1 in
    let c := ndiv F64 (nadd F64 a b) (nofZ F64 2) in
    mkRegion F64 a b c (eval_left F64 f a) (eval_at F64 f b) (eval_at F64 f c)
      (quad F64 a b c (eval_left F64 f a) (eval_at F64 f b) (eval_at F64 f c)).

  (** After 54 halvings the interval no longer changes. *)
  Lemma halvings : forall n, splits_right (Nat.iter n right_half first_region) = true.
  Proof.
    assert (H : forallb (fun n => splits_right (Nat.iter n right_half first_region)) (seq 0 61) = true)
      by (vm_compute; reflexivity).
    assert (E : Nat.iter 60 right_half first_region = Nat.iter 61 right_half first_region).
    { assert (Ea : @eq spec_float (rg_a (Nat.iter 60 right_half first_region)) (rg_a (Nat.iter 61 right_half first_region))) by (vm_compute; reflexivity).
      assert (Eb : @eq spec_float (rg_b (Nat.iter 60 right_half first_region)) (rg_b (Nat.iter 61 right_half first_region))) by (vm_compute; reflexivity).
      assert (Ec : @eq spec_float (rg_c (Nat.iter 60 right_half first_region)) (rg_c (Nat.iter 61 right_half first_region))) by (vm_compute; reflexivity).
      assert (Efa : @eq spec_float (rg_fa (Nat.iter 60 right_half first_region)) (rg_fa (Nat.iter 61 right_half first_region))) by (vm_compute; reflexivity).
      assert (Efb : @eq spec_float (rg_fb (Nat.iter 60 right_half first_region)) (rg_fb (Nat.iter 61 right_half first_region))) by (vm_compute; reflexivity).
      assert (Efc : @eq spec_float (rg_fc (Nat.iter 60 right_half first_region)) (rg_fc (Nat.iter 61 right_half first_region))) by (vm_compute; reflexivity).
      assert (Er : @eq spec_float (rg_r (Nat.iter 60 right_half first_region)) (rg_r (Nat.iter 61 right_half first_region))) by (vm_compute; reflexivity).
      destruct (Nat.iter 60 right_half first_region) as [a1 b1 c1 fa1 fb1 fc1 r1],
               (Nat.iter 61 right_half first_region) as [a2 b2 c2 fa2 fb2 fc2 r2].
      cbn [rg_a rg_b rg_c rg_fa rg_fb rg_fc rg_r] in *. congruence. }
    rewrite forallb_forall in H.
    assert (G : forall m, Nat.iter (60 + m) right_half first_region = Nat.iter 60 right_half first_region).
    { induction m as [|m IH].
      - replace (60 + 0)%nat with 60%nat by lia. reflexivity.
      - replace (60 + S m)%nat with (S (60 + m)) by lia. cbn [Nat.iter nat_rect].
        change (right_half (Nat.iter (60 + m) right_half first_region) = Nat.iter 60 right_half first_region).
        rewrite IH. symmetry. exact E. }
    intros n. destruct (Nat.le_gt_cases n 60) as [Hn|Hn].
    - apply H. apply in_seq. lia.
    - replace n with (60 + (n - 60))%nat by lia. rewrite G. apply H. apply in_seq. lia.
  Qed.

  Lemma loop_forever : forall fuel n tol maxeval counter integral rest tr acc,
    4294967295 <= maxeval ->
    maq_loop F64 f fuel tol maxeval counter integral
             (Nat.iter n right_half first_region :: rest) tr acc = OutOfFuel.
  Proof.
    induction fuel as [|fu IH]; intros n tol maxeval counter integral rest tr acc Hm; [reflexivity|].
    destruct (loop_right fu tol maxeval counter integral (Nat.iter n right_half first_region) rest tr acc
                (halvings n) Hm) as [tr' [rest' ->]].
    change (right_half (Nat.iter n right_half first_region))
      with (Nat.iter (S n) right_half first_region).
    apply IH. exact Hm.
  Qed.

  Lemma MAQ_forever : forall fuel (s : settings F64),
    set_eval_limit s = 4294967295 -> set_method s = BINARY_SUBDIVISION ->
    MAQ F64 f fuel s = OutOfFuel.
  Proof.
    intros fuel s He Hm. unfold MAQ. rewrite Hm. cbn [search].
    assert (E : binary_subdivision F64 f fuel (set_search_limit s) =
      Done (mkSR F64 (Some (nofZ F64 0, nofZ F64 1)) 2
             [x_from_t F64 (c0_mid F64); x_from_t F64 (nofZ F64 1)])) by reflexivity.
    rewrite E. cbn [obind sr_range sr_evals sr_trace].
    change (nisnan F64 (nofZ F64 0)) with false. cbn iota.
    unfold integrate_range.
    change (nisnan F64 (eval_left F64 f (nofZ F64 0))) with false.
    change (nisnan F64 (eval_at F64 f (nofZ F64 1))) with false.
    change (nisnan F64 (eval_at F64 f (ndiv F64 (nadd F64 (nofZ F64 0) (nofZ F64 1)) (nofZ F64 2))))
      with false.
    cbn iota.
    match goal with |- context [maq_loop F64 f fuel ?t ?m ?c ?i (?r :: ?l) ?tr ?acc] =>
      change (maq_loop F64 f fuel t m c i (r :: l) tr acc) with
        (maq_loop F64 f fuel t m c i (Nat.iter 0 right_half first_region :: l) tr acc);
      rewrite (loop_forever fuel 0 t m c i l tr acc) by (rewrite He; lia)
    end.
    reflexivity.
  Qed.
End Wrap.
