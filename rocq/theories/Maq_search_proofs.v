(** * Lemmas about the searches: termination, counting, shape of results *)
From Coq Require Import ZArith List Bool Lia.
From Coq Require Import ZifyBool ZifyNat.
From Verif Require Import Num Maq Maq_spec.
Import ListNotations.
Local Open Scope Z_scope.
Ltac Zify.zify_post_hook ::= Z.div_mod_to_equations.

(** The limit up to which no search overflows. *)
Definition max_limit : Z := 1073741824.

Lemma u32_small : forall z, 0 <= z < 4294967296 -> u32 z = z.
Proof. intros z Hz. unfold u32. apply Z.mod_small. exact Hz. Qed.

Lemma u64_small : forall z, 0 <= z < 18446744073709551616 -> u64 z = z.
Proof. intros z Hz. unfold u64. apply Z.mod_small. exact Hz. Qed.

Section P.
  Context (N : Num).
  Variable f : N -> N.
  Hypothesis HO : order_ok N.

  Notation probe := (probe N f).
  Notation sstate := (sstate N).

  (** The reported counter is the number of calls made. *)
  Definition counted (s : sstate) : Prop := ss_ev s = Z.of_nat (length (ss_tr s)).

  (** The recorded value is the integrand's value at the recorded point. *)
  Definition valued (s : sstate) : Prop := ss_fc s = f (x_from_t N (ss_c s)).

  Lemma probe_spec : forall s c,
    counted s -> valued (probe s c) /\
    (ss_ev s + 1 < 4294967296 ->
     counted (probe s c) /\ ss_ev (probe s c) = ss_ev s + 1).
  Proof.
    intros s c Hc. split; [reflexivity|]. intros Hlt.
    unfold counted in *. cbn [Maq.probe ss_ev ss_tr length].
    rewrite u32_small by lia. lia.
  Qed.

  Lemma start_counted : forall c0, counted (snd (search_start N f c0)).
  Proof. intros c0. reflexivity. Qed.

  Lemma gt_le_eps : forall v, gt_eps N v = true -> le_eps N v = false.
  Proof. intros v Hv. apply HO. exact Hv. Qed.

  Section Sub.
    Variables cpt apt bpt : Z -> Z -> N.
    Notation sub_for := (sub_for N f cpt apt bpt).
    Notation sub_while := (sub_while N f cpt apt bpt).

    (** What the inner loop may return: either it stopped at an odd index [j] with a
        value above the threshold, or it went through all indices. *)
    Inductive for_result (i hi n : Z) (s : sstate) : sstate -> Prop :=
    | for_found : forall j s',
        i <= j < hi -> (j - i) mod 2 = 0 ->
        counted s' -> valued s' ->
        ss_ev s' = ss_ev s + (j - i) / 2 + 1 ->
        ss_a s' = apt j n -> ss_b s' = bpt j n -> ss_c s' = cpt j n ->
        gt_eps N (ss_fc s') = true ->
        for_result i hi n s s'
    | for_none : forall s',
        counted s' -> (valued s -> valued s') ->
        ss_ev s' = ss_ev s + Z.max 0 ((hi - i + 1) / 2) ->
        ss_a s' = ss_a s -> ss_b s' = ss_b s ->
        (forall j, i <= j < hi -> (j - i) mod 2 = 0 ->
                   gt_eps N (f (x_from_t N (cpt j n))) = false) ->
        for_result i hi n s s'.

    Lemma sub_for_spec : forall fuel i hi n s,
      counted s ->
      0 <= i -> i <= hi + 1 -> hi + 1 <= int_max ->
      ss_ev s + Z.max 0 ((hi - i + 1) / 2) < 4294967296 ->
      (Z.max 0 ((hi - i + 1) / 2) < Z.of_nat fuel) ->
      exists s', sub_for fuel i hi n s = Done s' /\ for_result i hi n s s'.
    Proof.
      induction fuel as [|k IH]; intros i hi n s Hc Hi Hihi Hhi Hev Hfuel.
      - lia.
      - cbn [Maq.sub_for]. destruct (i <? hi) eqn:Elt.
        + assert (Hlt : ss_ev s + 1 < 4294967296) by (clear IH; lia).
          destruct (probe_spec s (cpt i n) Hc) as [Hv Hp].
          destruct (Hp Hlt) as [Hc' Hev'].
          destruct (gt_eps N (ss_fc (probe s (cpt i n)))) eqn:Egt.
          * eexists; split; [reflexivity|].
            apply for_found with (j := i); try assumption; try reflexivity.
            -- lia.
            -- rewrite Z.sub_diag. reflexivity.
            -- cbn [set_range ss_ev]. rewrite Z.sub_diag, Hev'. cbn [Z.div Z.div_eucl]. lia.
          * destruct (int_max <? i + 2) eqn:Eub; [unfold int_max in *; lia|].
            destruct (IH (i + 2) hi n (probe s (cpt i n))) as [s' [E R]]; try assumption; try lia.
            exists s'. split; [exact E|].
            destruct R as [j s' Hj Hm Hcs Hvs Hevs Ha Hb Hcc Hg | s' Hcs Hvs Hevs Ha Hb Hno].
            -- apply for_found with (j := j); try assumption; lia.
            -- apply for_none; try assumption; try lia.
               ++ intros _. apply Hvs. exact Hv.
               ++ intros j Hj Hjm. destruct (Z.eq_dec j i) as [->|Hne]; [exact Egt|].
                  apply Hno; lia.
        + exists s. split; [reflexivity|].
          apply for_none; try assumption; try reflexivity; try lia. intros H; exact H.
    Qed.

    (** A round is described by [cnt n], the number of probes in it.  [found] is the
        shape of the state after a successful round with [n] intervals. *)
    Variables lo hi cnt : Z -> Z.
    Hypothesis Hlo : forall n, 4 <= n -> n mod 4 = 0 -> 0 <= lo n /\ lo n <= hi n + 1.
    Hypothesis Hhin : forall n, 4 <= n -> n mod 4 = 0 -> hi n <= n.
    Hypothesis Hcnt : forall n, 4 <= n -> n mod 4 = 0 ->
      cnt n = (hi n - lo n + 1) / 2 /\ 1 <= cnt n < n.
    Hypothesis Hcnt2 : forall n, 4 <= n -> n mod 4 = 0 -> cnt (n * 2) = 2 * cnt n.

    Definition found_at (s' : sstate) (n j : Z) : Prop :=
      lo n <= j < hi n /\ (j - lo n) mod 2 = 0 /\
      ss_a s' = apt j n /\ ss_b s' = bpt j n /\ ss_c s' = cpt j n /\
      gt_eps N (ss_fc s') = true.

    (** Result of the outer loop started with [base + cnt n] evaluations. *)
    Inductive while_result (base limit n : Z) (s : sstate) : sstate -> Prop :=
    | while_found : forall n' j s',
        counted s' -> valued s' ->
        (exists k : nat, n' = n * 2 ^ Z.of_nat k) ->
        base + cnt n' < limit ->
        found_at s' n' j ->
        ss_ev s' = base + cnt n' + (j - lo n') / 2 + 1 ->
        while_result base limit n s s'
    | while_none : forall n' s',
        counted s' -> (valued s -> valued s') ->
        (exists k : nat, n' = n * 2 ^ Z.of_nat k) ->
        ss_ev s' = base + cnt n' ->
        (n < n' -> base + cnt n' / 2 < limit) ->
        ss_a s' = ss_a s -> ss_b s' = ss_b s ->
        (limit <= ss_ev s' \/ le_eps N (ss_fc s') = false) ->
        (forall q : nat, n * 2 ^ Z.of_nat q < n' ->
           forall j, lo (n * 2 ^ Z.of_nat q) <= j < hi (n * 2 ^ Z.of_nat q) ->
           (j - lo (n * 2 ^ Z.of_nat q)) mod 2 = 0 ->
           gt_eps N (f (x_from_t N (cpt j (n * 2 ^ Z.of_nat q)))) = false) ->
        while_result base limit n s s'.

    Lemma sub_while_spec : forall fuel base limit n s,
      counted s ->
      4 <= n -> n mod 4 = 0 ->
      0 <= base ->
      limit <= 2147483648 ->
      (forall q : nat, base + cnt (n * 2 ^ Z.of_nat q) < limit -> hi (n * 2 ^ Z.of_nat q) <= 1073741824) ->
      ss_ev s = base + cnt n ->
      limit - ss_ev s < Z.of_nat fuel ->
      (0 < fuel)%nat ->
      exists s', sub_while fuel lo hi limit n s = Done s' /\
                 while_result base limit n s s'.
    Proof.
      induction fuel as [|k IH]; intros base limit n s Hc Hn Hn4 Hbase Hlim Hbig Hev Hfuel Hpos.
      - lia.
      - cbn [Maq.sub_while].
        destruct ((ss_ev s <? limit) && le_eps N (ss_fc s)) eqn:Econd.
        + apply andb_prop in Econd. destruct Econd as [E1 E2].
          assert (Hn' : hi n <= 1073741824).
          { pose proof (Hbig 0%nat) as Hb0. change (2 ^ Z.of_nat 0) with 1 in Hb0.
            rewrite Z.mul_1_r in Hb0. apply Hb0. lia. }
          destruct (Hlo n Hn Hn4) as [Hl1 Hl2].
          pose proof (Hhin n Hn Hn4) as Hh.
          destruct (Hcnt n Hn Hn4) as [Hc1 Hc2].
          pose proof (Hcnt2 n Hn Hn4) as Hc3.
          destruct (sub_for_spec (Z.to_nat n) (lo n) (hi n) n s) as [s1 [E R]];
            try assumption; try (unfold int_max; lia).
          rewrite E. cbn [obind].
          destruct R as [j s1 Hj Hm Hcs Hvs Hevs Ha Hb Hcc Hg | s1 Hcs Hvs Hevs Ha Hb Hno].
          * (* the next test of the loop fails *)
            destruct k as [|k']; [lia|].
            cbn [Maq.sub_while].
            rewrite (gt_le_eps _ Hg), andb_false_r.
            exists s1. split; [reflexivity|].
            apply while_found with (n' := n) (j := j); try assumption; try lia.
            -- exists 0%nat. rewrite Z.pow_0_r. lia.
            -- repeat split; try assumption; lia.
          * assert (Hbig' : forall q : nat, base + cnt (n * 2 * 2 ^ Z.of_nat q) < limit ->
                                              hi (n * 2 * 2 ^ Z.of_nat q) <= 1073741824).
            { intros q. pose proof (Hbig (S q)) as Hbq.
              rewrite Nat2Z.inj_succ, Z.pow_succ_r, Z.mul_assoc in Hbq by (clear; lia). exact Hbq. }
            clear Hbig.
            destruct (IH base limit (n * 2) s1) as [s2 [E2' R2]]; try assumption; try lia.
            exists s2. split; [exact E2'|].
            destruct R2 as [n' j s2 Hcs2 Hvs2 [q Hq] Hb2 Hf2 Hev2
                           | n' s2 Hcs2 Hvs2 [q Hq] Hev2 Hb2 Ha2 Hbb2 Hex2 Hno2].
            -- apply while_found with (n' := n') (j := j); try assumption.
               exists (S q). rewrite Hq, Nat2Z.inj_succ, Z.pow_succ_r by lia. lia.
            -- apply while_none with (n' := n'); try assumption.
               ++ intros Hv. apply Hvs2, Hvs, Hv.
               ++ exists (S q). rewrite Hq, Nat2Z.inj_succ, Z.pow_succ_r by lia. lia.
               ++ intros _.
                  destruct (Z.eq_dec (n * 2) n') as [Heq|Hne].
                  ** subst n'. rewrite <- Heq. rewrite Hc3. lia.
                  ** apply Hb2.
                     assert (1 <= 2 ^ Z.of_nat q) by (apply (Z.pow_le_mono_r 2 0); lia).
                     assert (n * 2 * 1 <= n * 2 * 2 ^ Z.of_nat q)
                       by (apply Z.mul_le_mono_nonneg_l; lia).
                     clear - H H0 Hne Hq. lia.
               ++ congruence.
               ++ congruence.
               ++ intros [|r] Hr j Hj Hjm.
                  ** rewrite Z.pow_0_r, Z.mul_1_r in *. apply Hno; assumption.
                  ** rewrite Nat2Z.inj_succ, Z.pow_succ_r in * by (clear; lia).
                     rewrite Z.mul_assoc in *. apply Hno2; assumption.
        + exists s. split; [reflexivity|].
          apply andb_false_iff in Econd.
          apply while_none with (n' := n); try assumption; try reflexivity.
          * intros H; exact H.
          * exists 0%nat. rewrite Z.pow_0_r. lia.
          * intros Hbad. lia.
          * destruct Econd as [E|E]; [left; lia | right; exact E].
          * intros q Hq. exfalso.
            assert (1 <= 2 ^ Z.of_nat q) by (apply (Z.pow_le_mono_r 2 0); clear; lia).
            assert (n * 1 <= n * 2 ^ Z.of_nat q)
              by (apply Z.mul_le_mono_nonneg_l; [clear - Hn; lia | assumption]).
            clear - Hq H0. lia.
    Qed.
  End Sub.
End P.
