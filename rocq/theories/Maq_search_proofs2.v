(** * The five searches: termination, counting, limits, shape of the result *)
From Coq Require Import ZArith List Bool Lia.
From Coq Require Import ZifyBool ZifyNat.
From Verif Require Import Num Maq Maq_spec Maq_search_proofs.
Import ListNotations.
Local Open Scope Z_scope.
Ltac Zify.zify_post_hook ::= Z.div_mod_to_equations.

Section P.
  Context (N : Num).
  Variable f : N -> N.

  Notation sstate := (sstate N).
  Notation counted := (counted N).
  Notation valued := (valued N f).

  (** [v] is above the detection threshold at the point [c]. *)
  Definition hit (c : N) : Prop := gt_eps N (f (x_from_t N c)) = true.
  Definition miss (c : N) : Prop := gt_eps N (f (x_from_t N c)) = false.

  (** ** Subdivision searches *)
  Section Subdivision.
    Hypothesis HO : order_ok N.

    Lemma pow4 : forall q : nat, exists k : nat, 4 * 2 ^ Z.of_nat q = 2 ^ Z.of_nat k /\ (2 <= k)%nat.
    Proof.
      intros q. exists (q + 2)%nat. split; [|lia].
      rewrite Nat2Z.inj_add, Z.pow_add_r by lia. change (2 ^ Z.of_nat 2) with 4. lia.
    Qed.

    (** Result of a whole-range subdivision (binary or reverse) over points [cpt]. *)
    Inductive sub_result (cpt apt bpt : Z -> Z -> N) (c0 : N) (limit : Z) (s0 : sstate)
      : sstate -> Prop :=
    | sub_found : forall (k : nat) j s',
        counted s' -> (2 <= k)%nat -> 2 ^ Z.of_nat k / 2 < limit ->
        0 < j < 2 ^ Z.of_nat k -> j mod 2 = 1 ->
        ss_a s' = apt j (2 ^ Z.of_nat k) -> ss_b s' = bpt j (2 ^ Z.of_nat k) ->
        ss_c s' = cpt j (2 ^ Z.of_nat k) -> hit (cpt j (2 ^ Z.of_nat k)) ->
        le_eps N (ss_fc s') = false ->
        ss_ev s' = 2 ^ Z.of_nat k / 2 + (j - 1) / 2 + 1 ->
        sub_result cpt apt bpt c0 limit s0 s'
    | sub_none : forall (k : nat) s',
        counted s' -> (2 <= k)%nat ->
        ss_ev s' = 2 ^ Z.of_nat k / 2 ->
        (2 < k)%nat /\ 2 ^ Z.of_nat k / 4 < limit \/ k = 2%nat ->
        ss_a s' = ss_a s0 -> ss_b s' = ss_b s0 ->
        (limit <= 2 ^ Z.of_nat k / 2 \/ le_eps N (ss_fc s') = false) ->
        (forall q j, (2 <= q < k)%nat -> 0 < j < 2 ^ Z.of_nat q -> j mod 2 = 1 ->
                     miss (cpt j (2 ^ Z.of_nat q))) ->
        sub_result cpt apt bpt c0 limit s0 s'.

    (** Powers of two cannot pass a power of two without being twice as large. *)
    Lemma pow_under : forall (q : nat) (e : Z), 0 <= e ->
      2 ^ Z.of_nat q < 2 ^ (e + 1) -> 2 ^ Z.of_nat q <= 2 ^ e.
    Proof.
      intros q e He H. apply Z.pow_le_mono_r; [lia|].
      apply Z.pow_lt_mono_r_iff in H; lia.
    Qed.

    Lemma grid_half : forall q : nat, 4 * 2 ^ Z.of_nat q / 2 < 1073741824 ->
      4 * 2 ^ Z.of_nat q <= 1073741824.
    Proof.
      intros q H. pose proof (pow_under q 28 ltac:(lia)) as Hp.
      change (2 ^ (28 + 1)) with 536870912 in Hp. change (2 ^ 28) with 268435456 in Hp.
      generalize dependent (2 ^ Z.of_nat q). intros z H Hp. lia.
    Qed.

    Lemma grid_quarter : forall q : nat, 4 * 2 ^ Z.of_nat q / 4 < 1073741824 ->
      4 * 2 ^ Z.of_nat q / 2 <= 1073741824.
    Proof.
      intros q H. pose proof (pow_under q 29 ltac:(lia)) as Hp.
      change (2 ^ (29 + 1)) with 1073741824 in Hp. change (2 ^ 29) with 536870912 in Hp.
      generalize dependent (2 ^ Z.of_nat q). intros z H Hp. lia.
    Qed.

    (** The second phase of the low-first search starts from what the first one used, which
        is a power of two too. *)
    Lemma grid_second : forall (q k : nat) (limit : Z), (2 <= k)%nat ->
      search_safe LOW_FIRST_REVERSE_BINARY_SUBDIVISION limit -> limit / 2 <= 1 + 2 ^ Z.of_nat k / 4 ->
      2 ^ Z.of_nat k / 4 + 4 * 2 ^ Z.of_nat q / 4 < limit ->
      4 * 2 ^ Z.of_nat q <= 1073741824.
    Proof.
      intros q k limit Hk Hl H1 H2. cbn [search_safe] in Hl.
      assert (Ek : 2 ^ Z.of_nat k = 4 * 2 ^ Z.of_nat (k - 2)).
      { replace (Z.of_nat k) with (2 + Z.of_nat (k - 2)) by lia.
        rewrite Z.pow_add_r by lia. reflexivity. }
      rewrite Ek in H1, H2.
      pose proof (pow_under q 28 ltac:(lia)) as Hp.
      pose proof (pow_under (k - 2) 28 ltac:(lia)) as Hq.
      pose proof (pow_under (k - 2) 29 ltac:(lia)) as Hq'.
      change (2 ^ (29 + 1)) with 1073741824 in Hq'. change (2 ^ 29) with 536870912 in Hq'.
      change (2 ^ (28 + 1)) with 536870912 in Hp, Hq. change (2 ^ 28) with 268435456 in Hp, Hq.
      assert (P : 0 < 2 ^ Z.of_nat q) by (apply Z.pow_pos_nonneg; lia).
      clear Ek. generalize dependent (2 ^ Z.of_nat (k - 2)). generalize dependent (2 ^ Z.of_nat q).
      intros z Hz Pz y H1 H2 Hy Hy'.
      rewrite (Z.mul_comm 4 y), Z.div_mul in H1 by discriminate.
      rewrite (Z.mul_comm 4 y), (Z.mul_comm 4 z), !Z.div_mul in H2 by discriminate.
      assert (H3 : limit <= 2 * y + 3) by (clear - H1; lia). clear H1.
      destruct (Z_lt_le_dec z 536870912) as [L|L]; [specialize (Hz L); clear - Hz; lia|exfalso].
      clear Hz. destruct (Z_lt_le_dec y 536870912) as [Ly|Ly].
      { specialize (Hy Ly). clear - H2 H3 Hy L Hl. destruct Hl; lia. }
      clear Hy. destruct (Z_lt_le_dec y 1073741824) as [Ly'|Ly'].
      { specialize (Hy' Ly'). clear - H2 H3 Hy' L Hl Ly. destruct Hl; lia. }
      clear - H2 L Ly' Hl. destruct Hl; lia.
    Qed.

    Lemma whole_sub_spec : forall cpt apt bpt fuel c0 limit s0,
      1 <= limit <= max_limit ->
      limit < Z.of_nat fuel ->
      counted s0 -> ss_ev s0 = 2 ->
      exists s', sub_while N f cpt apt bpt fuel (fun _ => 1) (fun n => n) limit 4 s0 = Done s'
                 /\ sub_result cpt apt bpt c0 limit s0 s'.
    Proof.
      intros cpt apt bpt fuel c0 limit s0 Hl Hf Hc Hev. unfold max_limit in Hl.
      destruct (sub_while_spec N f HO cpt apt bpt (fun _ => 1) (fun n => n) (fun n => n / 2))
        with (fuel := fuel) (base := 0) (limit := limit) (n := 4) (s := s0)
        as [s' [E R]]; try assumption; try (clear - Hl Hf; lia);
          try (intros q Hq; apply grid_half; clear - Hl Hq; lia); try (intros; lia).
      all: try (rewrite Hev; reflexivity).
      exists s'. split; [exact E|].
      destruct R as [n' j s' Hcs Hvs [q Hq] Hb [Hj [Hjm [Ha [Hbb [Hcc Hg]]]]] Hevs
                    | n' s' Hcs Hvs [q Hq] Hevs Hb Ha Hbb Hex Hno];
        destruct (pow4 q) as [k [Hk Hk2]]; rewrite Hk in Hq; subst n'.
      - apply sub_found with (k := k) (j := j); try assumption; try (clear - Hj Hjm; lia);
          try (clear - Hb; lia).
        + unfold hit. rewrite <- Hcc, <- Hvs. exact Hg.
        + apply (gt_le_eps N HO). exact Hg.
      - apply sub_none with (k := k); try assumption.
        + destruct (Nat.eq_dec k 2) as [->|Hne]; [right; reflexivity|left].
          split; [clear - Hne Hk2; lia|].
          assert (4 < 2 ^ Z.of_nat k).
          { change 4 with (2 ^ 2). apply Z.pow_lt_mono_r; clear - Hne Hk2; lia. }
          pose proof (Hb H) as Hb'. clear - Hb'. lia.
        + rewrite Hevs, Z.add_0_l in Hex. exact Hex.
        + intros r j Hr Hj Hjm.
          assert (Er : 4 * 2 ^ Z.of_nat (r - 2) = 2 ^ Z.of_nat r).
          { replace (Z.of_nat r) with (2 + Z.of_nat (r - 2)) by (clear - Hr; lia).
            rewrite Z.pow_add_r by (clear; lia). reflexivity. }
          rewrite <- Er. apply Hno.
          * rewrite Er. apply Z.pow_lt_mono_r; clear - Hr; lia.
          * rewrite Er. clear - Hj; lia.
          * clear - Hjm; lia.
    Qed.

    (** Specification of a result of [binary_subdivision] (with [bin_*], [c0_mid]) and
        [reverse_binary_subdivision] (with [rev_*], [c0_rev]). *)
    Inductive sub_search_result (cpt apt bpt : Z -> Z -> N) (c0 : N) (limit : Z)
      : search_result N -> Prop :=
    | ssr_whole : forall ev tr,
        ev = Z.of_nat (length tr) -> 2 <= ev <= Z.max 2 (2 * (limit - 1)) ->
        sub_search_result cpt apt bpt c0 limit (mkSR N (Some (nofZ N 0, nofZ N 1)) ev tr)
    | ssr_found : forall (k : nat) j ev tr,
        ev = Z.of_nat (length tr) -> 2 <= ev <= 2 * (limit - 1) ->
        (2 <= k)%nat -> 2 ^ Z.of_nat k / 2 < limit ->
        0 < j < 2 ^ Z.of_nat k -> j mod 2 = 1 ->
        hit (cpt j (2 ^ Z.of_nat k)) ->
        sub_search_result cpt apt bpt c0 limit
          (mkSR N (Some (apt j (2 ^ Z.of_nat k), bpt j (2 ^ Z.of_nat k))) ev tr)
    | ssr_nothing : forall (k : nat) ev tr,
        ev = Z.of_nat (length tr) -> 2 <= ev <= Z.max 2 (2 * (limit - 1)) ->
        (2 <= k)%nat -> limit <= 2 ^ Z.of_nat k / 2 ->
        miss (nofZ N 1) -> miss c0 ->
        (forall q j, (2 <= q < k)%nat -> 0 < j < 2 ^ Z.of_nat q -> j mod 2 = 1 ->
                     miss (cpt j (2 ^ Z.of_nat q))) ->
        sub_search_result cpt apt bpt c0 limit (mkSR N None ev tr).

    Lemma le_eps_miss : forall v, le_eps N v = true -> gt_eps N v = false.
    Proof.
      intros v Hv. destruct (gt_eps N v) eqn:E; [|reflexivity].
      rewrite (gt_le_eps N HO v E) in Hv. discriminate.
    Qed.

    Definition generic_sub (cpt apt bpt : Z -> Z -> N) (c0 : N) (fuel : nat) (limit : Z) :=
      let '(fb, s) := search_start N f c0 in
      if le_eps N fb && le_eps N (ss_fc s) then
        obind (sub_while N f cpt apt bpt fuel (fun _ => 1) (fun n => n) limit 4 s)
              (fun s' => Done (search_finish N s'))
      else Done (search_whole N s).

    Lemma generic_sub_spec : forall cpt apt bpt c0 fuel limit,
      1 <= limit <= max_limit -> limit < Z.of_nat fuel ->
      exists r, generic_sub cpt apt bpt c0 fuel limit = Done r /\
                sub_search_result cpt apt bpt c0 limit r.
    Proof.
      intros cpt apt bpt c0 fuel limit Hl Hf. unfold generic_sub.
      destruct (search_start N f c0) as [fb s] eqn:Es.
      assert (Hc : counted s) by (injection Es as <- <-; reflexivity).
      assert (Hev : ss_ev s = 2) by (injection Es as <- <-; reflexivity).
      assert (Hab : ss_a s = nofZ N 0 /\ ss_b s = nofZ N 1) by (injection Es as <- <-; split; reflexivity).
      assert (Hfb : fb = f (x_from_t N (nofZ N 1))) by (injection Es as <- <-; reflexivity).
      assert (Hfc : ss_fc s = f (x_from_t N c0)) by (injection Es as <- <-; reflexivity).
      destruct (le_eps N fb && le_eps N (ss_fc s)) eqn:Eb.
      - apply andb_prop in Eb. destruct Eb as [Eb1 Eb2].
        destruct (whole_sub_spec cpt apt bpt fuel c0 limit s Hl Hf Hc Hev) as [s' [E R]].
        rewrite E. cbn [obind]. eexists; split; [reflexivity|].
        unfold search_finish.
        destruct R as [k j s' Hcs Hk Hkl Hj Hjm Ha Hb Hcc Hh Hle Hevs
                      | k s' Hcs Hk Hevs Hkl Ha Hb Hex Hno].
        + rewrite Hle, Ha, Hb. apply ssr_found; try assumption.
          clear - Hevs Hkl Hj Hk. assert (4 <= 2 ^ Z.of_nat k).
          { change 4 with (2 ^ 2). apply Z.pow_le_mono_r; lia. }
          assert (2 ^ Z.of_nat k mod 2 = 0).
          { replace (Z.of_nat k) with (1 + Z.of_nat (k - 1)) by lia.
            rewrite Z.pow_add_r by lia. change (2 ^ 1) with 2.
            rewrite Z.mul_comm. apply Z.mod_mul. lia. }
          lia.
        + destruct (le_eps N (ss_fc s')) eqn:El.
          * apply ssr_nothing with (k := k); try assumption.
            -- assert (4 <= 2 ^ Z.of_nat k).
               { change 4 with (2 ^ 2). apply Z.pow_le_mono_r; clear - Hk; lia. }
               destruct Hkl as [[Hk2 Hkl]| ->].
               ++ assert (2 ^ Z.of_nat k / 2 = 2 * (2 ^ Z.of_nat k / 4)).
                  { replace (Z.of_nat k) with (2 + Z.of_nat (k - 2)) by (clear - Hk; lia).
                    rewrite Z.pow_add_r by (clear; lia). change (2 ^ 2) with 4. clear. lia. }
                  clear - Hevs H H0 Hkl. lia.
               ++ rewrite Hevs. clear. change (2 ^ Z.of_nat 2 / 2) with 2. lia.
            -- destruct Hex as [Hex|Hex]; [exact Hex|discriminate].
            -- unfold miss. rewrite <- Hfb. apply le_eps_miss. exact Eb1.
            -- unfold miss. rewrite <- Hfc. apply le_eps_miss. exact Eb2.
          * destruct Hab as [Hab1 Hab2]. rewrite Ha, Hb, Hab1, Hab2. apply ssr_whole; [exact Hcs|].
            assert (4 <= 2 ^ Z.of_nat k).
               { change 4 with (2 ^ 2). apply Z.pow_le_mono_r; clear - Hk; lia. }
               destruct Hkl as [[Hk2 Hkl]| ->].
               ++ assert (2 ^ Z.of_nat k / 2 = 2 * (2 ^ Z.of_nat k / 4)).
                  { replace (Z.of_nat k) with (2 + Z.of_nat (k - 2)) by (clear - Hk; lia).
                    rewrite Z.pow_add_r by (clear; lia). change (2 ^ 2) with 4. clear. lia. }
                  clear - Hevs H H0 Hkl. lia.
               ++ rewrite Hevs. clear. change (2 ^ Z.of_nat 2 / 2) with 2. lia.
      - eexists; split; [reflexivity|]. unfold search_whole.
        destruct Hab as [Hab1 Hab2]. rewrite Hab1, Hab2. apply ssr_whole; [exact Hc|lia].
    Qed.

    Lemma binary_spec : forall fuel limit,
      1 <= limit <= max_limit -> limit < Z.of_nat fuel ->
      exists r, binary_subdivision N f fuel limit = Done r /\
                sub_search_result (bin_c N) (bin_a N) (bin_b N) (c0_mid N) limit r.
    Proof. exact (generic_sub_spec (bin_c N) (bin_a N) (bin_b N) (c0_mid N)). Qed.

    Lemma reverse_spec : forall fuel limit,
      1 <= limit <= max_limit -> limit < Z.of_nat fuel ->
      exists r, reverse_binary_subdivision N f fuel limit = Done r /\
                sub_search_result (rev_c N) (rev_a N) (rev_b N) (c0_rev N) limit r.
    Proof. exact (generic_sub_spec (rev_c N) (rev_a N) (rev_b N) (c0_rev N)). Qed.

    (** *** The low-first search *)
    Inductive low_search_result (limit : Z) : search_result N -> Prop :=
    | lsr_whole : forall ev tr,
        ev = Z.of_nat (length tr) -> 2 <= ev <= Z.max 2 (2 * (limit - 1)) ->
        low_search_result limit (mkSR N (Some (nofZ N 0, nofZ N 1)) ev tr)
    | lsr_found : forall (k : nat) j ev tr,
        ev = Z.of_nat (length tr) -> 2 <= ev <= 2 * (limit - 1) ->
        (2 <= k)%nat -> 2 ^ Z.of_nat k / 4 < limit ->
        0 < j < 2 ^ Z.of_nat k -> j mod 2 = 1 ->
        hit (rev_c N j (2 ^ Z.of_nat k)) ->
        low_search_result limit
          (mkSR N (Some (rev_a N j (2 ^ Z.of_nat k), rev_b N j (2 ^ Z.of_nat k))) ev tr)
    | lsr_nothing : forall (k1 k2 : nat) ev tr,
        ev = Z.of_nat (length tr) -> 2 <= ev <= Z.max 2 (2 * (limit - 1)) ->
        (2 <= k1)%nat -> (2 <= k2)%nat ->
        limit / 2 <= 1 + 2 ^ Z.of_nat k1 / 4 ->
        limit <= 2 ^ Z.of_nat k1 / 4 + 2 ^ Z.of_nat k2 / 4 ->
        miss (nofZ N 1) -> miss (c0_rev N) ->
        (forall q j, (2 <= q < k1)%nat -> 0 < j < 2 ^ Z.of_nat q / 2 -> j mod 2 = 1 ->
                     miss (rev_c N j (2 ^ Z.of_nat q))) ->
        (forall q j, (2 <= q < k2)%nat -> 2 ^ Z.of_nat q / 2 < j < 2 ^ Z.of_nat q ->
                     j mod 2 = 1 -> miss (rev_c N j (2 ^ Z.of_nat q))) ->
        low_search_result limit (mkSR N None ev tr).

    Lemma pow_ge4 : forall k : nat, (2 <= k)%nat -> 4 <= 2 ^ Z.of_nat k /\ 2 ^ Z.of_nat k mod 4 = 0.
    Proof.
      intros k Hk. split.
      - change 4 with (2 ^ 2). apply Z.pow_le_mono_r; lia.
      - replace (Z.of_nat k) with (2 + Z.of_nat (k - 2)) by lia.
        rewrite Z.pow_add_r by lia. change (2 ^ 2) with 4.
        rewrite Z.mul_comm. apply Z.mod_mul. lia.
    Qed.

    Lemma pow_eq : forall (q k : nat), 4 * 2 ^ Z.of_nat q = 2 ^ Z.of_nat k -> k = (q + 2)%nat.
    Proof.
      intros q k H.
      assert (2 ^ (2 + Z.of_nat q) = 2 ^ Z.of_nat k).
      { rewrite Z.pow_add_r by lia. change (2 ^ 2) with 4. exact H. }
      apply Z.pow_inj_r in H0; lia.
    Qed.

    Lemma low_spec : forall fuel limit,
      1 <= limit -> search_safe LOW_FIRST_REVERSE_BINARY_SUBDIVISION limit -> limit < Z.of_nat fuel ->
      exists r, low_first_reverse_binary_subdivision N f fuel limit = Done r /\
                low_search_result limit r.
    Proof.
      intros fuel limit Hl1 Hsafe Hf. unfold low_first_reverse_binary_subdivision.
      assert (Hl : 1 <= limit <= 1610612736) by (cbn [search_safe] in Hsafe; lia).
      destruct (search_start N f (c0_rev N)) as [fb s] eqn:Es.
      assert (Hc : counted s) by (injection Es as <- <-; reflexivity).
      assert (Hev : ss_ev s = 2) by (injection Es as <- <-; reflexivity).
      assert (Hab : ss_a s = nofZ N 0 /\ ss_b s = nofZ N 1) by (injection Es as <- <-; split; reflexivity).
      assert (Hfb : fb = f (x_from_t N (nofZ N 1))) by (injection Es as <- <-; reflexivity).
      assert (Hfc : ss_fc s = f (x_from_t N (c0_rev N))) by (injection Es as <- <-; reflexivity).
      destruct Hab as [Hab1 Hab2].
      destruct (le_eps N fb && le_eps N (ss_fc s)) eqn:Eb.
      2:{ eexists; split; [reflexivity|]. unfold search_whole.
          rewrite Hab1, Hab2. apply lsr_whole; [exact Hc|clear - Hev; lia]. }
      apply andb_prop in Eb. destruct Eb as [Eb1 Eb2].
      destruct (sub_while_spec N f HO (rev_c N) (rev_a N) (rev_b N)
                  (fun _ => 1) (fun n => n / 2) (fun n => n / 4))
        with (fuel := fuel) (base := 1) (limit := limit / 2) (n := 4) (s := s)
        as [s1 [E R]]; try assumption; try (clear - Hl Hf; lia);
          try (intros q Hq; apply grid_quarter; clear - Hl Hq; lia); try (intros; lia).
      all: try (rewrite Hev; reflexivity).
      rewrite E. cbn [obind]. clear E.
      destruct R as [n' j s1 Hcs Hvs [q Hq] Hb [Hj [Hjm [Ha [Hbb [Hcc Hg]]]]] Hevs
                    | n' s1 Hcs Hvs [q Hq] Hevs Hb Ha Hbb Hex Hno];
        destruct (pow4 q) as [k [Hk Hk2]]; pose proof (pow_eq q k Hk) as Hkq;
        rewrite Hk in Hq; subst n'; destruct (pow_ge4 k Hk2) as [Hk4 Hkm].
      - (* found in the first phase; the second loop does not run *)
        destruct fuel as [|fuel']; [clear - Hf Hl; lia|].
        cbn [Maq.sub_while]. rewrite (gt_le_eps N HO _ Hg), andb_false_r. cbn [obind].
        eexists; split; [reflexivity|]. unfold search_finish.
        rewrite (gt_le_eps N HO _ Hg), Ha, Hbb.
        apply lsr_found; try assumption.
        + rewrite Hevs. clear - Hb Hj Hk4 Hkm. lia.
        + clear - Hb; lia.
        + clear - Hj Hk4; lia.
        + clear - Hjm; lia.
        + unfold hit. rewrite <- Hcc, <- Hvs. exact Hg.
      - (* nothing in the first phase *)
        assert (Hs1 : 2 <= ss_ev s1 <= Z.max 2 limit).
        { split; [clear - Hevs Hk4; lia|].
          destruct (Z.eq_dec (2 ^ Z.of_nat k) 4) as [E4|E4].
          - rewrite Hevs, E4. clear. change (4 / 4) with 1. lia.
          - pose proof (Hb ltac:(clear - E4 Hk4; lia)) as Hb'.
            rewrite Hevs. clear - Hb' Hkm. lia. }
        destruct (le_eps N (ss_fc s1)) eqn:El1.
        2:{ destruct fuel as [|fuel']; [clear - Hf Hl; lia|].
            cbn [Maq.sub_while]. rewrite El1, andb_false_r. cbn [obind].
            eexists; split; [reflexivity|]. unfold search_finish. rewrite El1.
            rewrite Ha, Hbb, Hab1, Hab2. apply lsr_whole; [exact Hcs|].
            destruct (Z.eq_dec (2 ^ Z.of_nat k) 4) as [E4|E4].
            - rewrite Hevs, E4. clear. change (4 / 4) with 1. lia.
            - pose proof (Hb ltac:(clear - E4 Hk4; lia)) as Hb'.
              rewrite Hevs. clear - Hb' Hkm Hk4. lia. }
        assert (Hgrid : forall q0 : nat, ss_ev s1 - 1 + 4 * 2 ^ Z.of_nat q0 / 4 < limit ->
                                         4 * 2 ^ Z.of_nat q0 <= 1073741824).
        { intros q0 Hq0. destruct Hex as [Hex|Hex]; [|congruence].
          apply (grid_second q0 k limit Hk2); [exact Hsafe|clear - Hex Hevs; lia|].
          clear - Hq0 Hevs. lia. }
        destruct (sub_while_spec N f HO (rev_c N) (rev_a N) (rev_b N)
                    (fun n => 1 + n / 2) (fun n => n) (fun n => n / 4))
          with (fuel := fuel) (base := ss_ev s1 - 1) (limit := limit) (n := 4) (s := s1)
          as [s2 [E R]]; try assumption; try (clear - Hl Hf Hs1; lia);
            try (clear - Hl Hs1; intros; lia).
        rewrite E. cbn [obind]. clear E.
        eexists; split; [reflexivity|]. unfold search_finish.
        destruct R as [n' j s2 Hcs2 Hvs2 [q2 Hq2] Hb2 [Hj2 [Hjm2 [Ha2 [Hbb2 [Hcc2 Hg2]]]]] Hevs2
                      | n' s2 Hcs2 Hvs2 [q2 Hq2] Hevs2 Hb2 Ha2 Hbb2 Hex2 Hno2];
          destruct (pow4 q2) as [k2 [Hkk Hkk2]]; pose proof (pow_eq q2 k2 Hkk) as Hkq2;
          rewrite Hkk in Hq2; subst n'; destruct (pow_ge4 k2 Hkk2) as [Hk4' Hkm'].
        + rewrite (gt_le_eps N HO _ Hg2), Ha2, Hbb2.
          apply lsr_found; try assumption.
          * rewrite Hevs2. clear - Hb2 Hj2 Hk4' Hkm' Hs1. lia.
          * clear - Hb2 Hs1; lia.
          * clear - Hj2 Hk4'; lia.
          * clear - Hjm2 Hkm'; lia.
          * unfold hit. rewrite <- Hcc2, <- Hvs2. exact Hg2.
        + assert (Hs2 : 2 <= ss_ev s2 <= Z.max 2 (2 * (limit - 1))).
          { split; [clear - Hevs2 Hk4' Hs1; lia|].
            destruct (Z.eq_dec (2 ^ Z.of_nat k2) 4) as [E4|E4].
            - rewrite Hevs2, E4. clear - Hs1 Hb Hevs Hk4 Hl.
              change (4 / 4) with 1. lia.
            - pose proof (Hb2 ltac:(clear - E4 Hk4'; lia)) as Hb'.
              rewrite Hevs2. clear - Hb' Hkm' Hs1. lia. }
          destruct (le_eps N (ss_fc s2)) eqn:El.
          * assert (Hlim2 : limit <= ss_ev s2)
              by (destruct Hex2 as [Hx|Hx]; [exact Hx|discriminate]).
            (* the first phase must also have ended because of its limit *)
            destruct Hex as [Hex|Hex]; [|congruence].
            { apply lsr_nothing with (k1 := k) (k2 := k2); try assumption.
               ++ clear - Hex Hevs; lia.
               ++ clear - Hlim2 Hevs Hevs2; lia.
               ++ unfold miss. rewrite <- Hfb. apply le_eps_miss. exact Eb1.
               ++ unfold miss. rewrite <- Hfc. apply le_eps_miss. exact Eb2.
               ++ intros r j Hr Hj Hjm.
                  assert (Er : 4 * 2 ^ Z.of_nat (r - 2) = 2 ^ Z.of_nat r).
                  { replace (Z.of_nat r) with (2 + Z.of_nat (r - 2)) by (clear - Hr; lia).
                    rewrite Z.pow_add_r by (clear; lia). reflexivity. }
                  rewrite <- Er. apply Hno.
                  ** rewrite Er. apply Z.pow_lt_mono_r; clear - Hr; lia.
                  ** rewrite Er. clear - Hj; lia.
                  ** clear - Hjm; lia.
               ++ intros r j Hr Hj Hjm.
                  assert (Er : 4 * 2 ^ Z.of_nat (r - 2) = 2 ^ Z.of_nat r).
                  { replace (Z.of_nat r) with (2 + Z.of_nat (r - 2)) by (clear - Hr; lia).
                    rewrite Z.pow_add_r by (clear; lia). reflexivity. }
                  destruct (pow_ge4 r ltac:(clear - Hr; lia)) as [_ Hrm].
                  rewrite <- Er. apply Hno2.
                  ** rewrite Er. apply Z.pow_lt_mono_r; clear - Hr; lia.
                  ** rewrite Er. clear - Hj; lia.
                  ** rewrite Er. clear - Hjm Hrm; lia. }
          * rewrite Ha2, Hbb2, Ha, Hbb, Hab1, Hab2. apply lsr_whole; assumption.
    Qed.
  End Subdivision.

  (** ** Scattered and directed searches *)
  Definition max_scattered : Z := 4294967295.
  Definition max_refined : Z := 4294967294.
  Definition two62 : Z := 4611686018427387904.

  (** Every point probed is [rev_c i n] for some [1 <= i < n <= 2^62], [n] a power of two. *)
  Definition scat_point (c : N) : Prop :=
    exists (k : nat) (i : Z), (2 <= k <= 62)%nat /\ 1 <= i < 2 ^ Z.of_nat k /\
                             c = rev_c N i (2 ^ Z.of_nat k).

  (** Relation between the states before and after a probing loop. *)
  Record scat_rel (limit : Z) (s s' : sstate) : Prop := mkSRel {
    sc_counted : counted s';
    sc_ev : ss_ev s <= ss_ev s' <= Z.max (ss_ev s) limit;
    sc_a : ss_a s' = ss_a s;
    sc_b : ss_b s' = ss_b s;
    sc_c : (ss_c s' = ss_c s /\ ss_fc s' = ss_fc s) \/ (valued s' /\ scat_point (ss_c s'))
  }.

  Lemma scat_rel_refl : forall limit s, counted s -> scat_rel limit s s.
  Proof.
    intros limit s Hc. constructor; try reflexivity; try assumption; [lia|].
    left; split; reflexivity.
  Qed.

  Lemma scat_rel_trans : forall limit s1 s2 s3,
    scat_rel limit s1 s2 -> scat_rel limit s2 s3 -> scat_rel limit s1 s3.
  Proof.
    intros limit s1 s2 s3 [H1 H2 H3 H4 H5] [G1 G2 G3 G4 G5].
    constructor; try assumption; try congruence; [lia|].
    destruct G5 as [[Gc Gf]|G5]; [|right; exact G5].
    destruct H5 as [[Hc Hf]|[Hv Hp]]; [left; split; congruence|].
    right. split; [|rewrite Gc; exact Hp].
    unfold Maq_search_proofs.valued in *. congruence.
  Qed.

  Lemma scat_rel_probe : forall limit s k i,
    counted s -> ss_ev s < limit -> limit <= max_scattered ->
    (2 <= k <= 62)%nat -> 1 <= i < 2 ^ Z.of_nat k ->
    scat_rel limit s (probe N f s (rev_c N i (2 ^ Z.of_nat k))) /\
    ss_ev (probe N f s (rev_c N i (2 ^ Z.of_nat k))) = ss_ev s + 1.
  Proof.
    intros limit s k i Hc Hlt Hl Hk Hi. unfold max_scattered in Hl.
    destruct (probe_spec N f s (rev_c N i (2 ^ Z.of_nat k)) Hc) as [Hv Hp].
    destruct Hp as [Hc' Hev]; [lia|]. split; [|exact Hev].
    constructor; try assumption; try reflexivity; [lia|].
    right. split; [exact Hv|]. exists k, i. repeat split; try assumption; lia.
  Qed.

  Lemma pow62 : forall k : nat, (2 <= k <= 62)%nat -> 4 <= 2 ^ Z.of_nat k <= two62.
  Proof.
    intros k Hk. split.
    - change 4 with (2 ^ 2). apply Z.pow_le_mono_r; lia.
    - change two62 with (2 ^ 62). apply Z.pow_le_mono_r; lia.
  Qed.

  Section Scat.
    Variables stop go : N -> bool.

    Lemma scat_inner_spec : forall fuel limit k i p s,
      limit <= max_scattered ->
      counted s -> (2 <= k <= 62)%nat -> 1 <= i -> 1 <= p <= i ->
      Z.max 0 (limit - ss_ev s) < Z.of_nat fuel ->
      exists s', scat_inner N f stop fuel limit (2 ^ Z.of_nat k) i p s = Done s' /\
                 scat_rel limit s s'.
    Proof.
      induction fuel as [|fu IH]; intros limit k i p s Hl Hc Hk Hi Hp Hf; [lia|].
      cbn [Maq.scat_inner].
      destruct ((i <? 2 ^ Z.of_nat k) && (ss_ev s <? limit)) eqn:E.
      - apply andb_prop in E. destruct E as [E1 E2].
        destruct (scat_rel_probe limit s k i Hc) as [Hr Hev]; try assumption; try lia.
        destruct (stop (ss_fc (probe N f s (rev_c N i (2 ^ Z.of_nat k))))) eqn:Es.
        + eexists; split; [reflexivity|exact Hr].
        + pose proof (pow62 k Hk) as Hp62. unfold two62 in Hp62.
          destruct (long_max <? p * 2) eqn:Eub; [unfold long_max in *; lia|].
          rewrite u64_small by lia.
          destruct (IH limit k (i + p * 2) (p * 2)
                       (probe N f s (rev_c N i (2 ^ Z.of_nat k)))) as [s' [E' R']];
            try assumption; try lia.
          { apply (sc_counted _ _ _ Hr). }
          exists s'. split; [exact E'|]. apply (scat_rel_trans _ _ _ _ Hr R').
      - exists s. split; [reflexivity|apply scat_rel_refl; exact Hc].
    Qed.

    Lemma scat_outer_spec : forall fuel limit k kk s,
      limit <= max_scattered ->
      counted s -> 0 <= ss_ev s -> (2 <= k <= 62)%nat -> 0 <= kk <= 2 * ss_ev s ->
      Z.max 0 (limit - ss_ev s) < Z.of_nat fuel ->
      exists s', scat_outer N f stop go fuel limit (2 ^ Z.of_nat k) kk s = Done s' /\
                 scat_rel limit s s' /\
                 (limit <= ss_ev s' \/ go (ss_fc s') = false \/
                  (stop (ss_fc s') = true /\ ss_ev s < ss_ev s')) /\
                 (ss_ev s < limit -> go (ss_fc s) = true -> ss_ev s < ss_ev s').
    Proof.
      induction fuel as [|fu IH]; intros limit k kk s Hl Hc H0 Hk Hkk Hf; [lia|].
      cbn [Maq.scat_outer].
      destruct ((ss_ev s <? limit) && go (ss_fc s)) eqn:E.
      - apply andb_prop in E. destruct E as [E1 E2].
        pose proof (pow62 k Hk) as Hp62.
        destruct (scat_rel_probe limit s k 1 Hc) as [Hr Hev]; try assumption; try lia.
        set (s1 := probe N f s (rev_c N 1 (2 ^ Z.of_nat k))) in *.
        destruct (stop (ss_fc s1)) eqn:Es.
        + exists s1. split; [reflexivity|]. split; [exact Hr|]. split; [right; right; split; [exact Es|lia]|]. lia.
        + unfold max_scattered in Hl.
          destruct ((long_max <? 2 + 2 * kk) || (long_max <? kk + 2)) eqn:Eub;
            [unfold long_max in *; lia|].
          unfold two62 in Hp62.
          rewrite (u64_small (1 + (2 + 2 * kk))) by lia.
          destruct (scat_inner_spec fu limit k (1 + (2 + 2 * kk)) (2 + 2 * kk) s1)
            as [s2 [E3 R2]]; try (unfold max_scattered; lia); try assumption.
          { apply (sc_counted _ _ _ Hr). }
          rewrite E3. cbn [obind].
          pose proof (sc_ev _ _ _ R2) as Hev2.
          pose proof (sc_counted _ _ _ R2) as Hc2.
          assert (Hn : exists k', (2 <= k' <= 62)%nat /\
                     (if u64 (u64 (2 ^ Z.of_nat k * 2) * 2) =? 0 then 4
                      else u64 (2 ^ Z.of_nat k * 2)) = 2 ^ Z.of_nat k').
          { destruct (Nat.eq_dec k 62) as [->|Hne].
            - exists 2%nat. split; [lia|]. reflexivity.
            - exists (S k). split; [lia|].
              assert (E4 : 2 ^ Z.of_nat k * 2 = 2 ^ Z.of_nat (S k))
                by (rewrite Nat2Z.inj_succ, Z.pow_succ_r by lia; lia).
              rewrite E4.
              pose proof (pow62 (S k) ltac:(lia)) as Hp'. unfold two62 in Hp'.
              rewrite (u64_small (2 ^ Z.of_nat (S k))) by lia.
              rewrite u64_small by lia.
              destruct (2 ^ Z.of_nat (S k) * 2 =? 0) eqn:E5; [lia|reflexivity]. }
          destruct Hn as [k' [Hk' En]]. rewrite En.
          destruct (IH limit k' (kk + 2) s2) as [s3 [E4 [R3 [X3 _]]]];
            try (unfold max_scattered; lia); try assumption.
          exists s3. split; [exact E4|].
          pose proof (scat_rel_trans _ _ _ _ (scat_rel_trans _ _ _ _ Hr R2) R3) as HR.
          split; [exact HR|].
          pose proof (sc_ev _ _ _ R3) as Hev3.
          split.
          * destruct X3 as [X|[X|[X Y]]]; [left; exact X|right; left; exact X|
                                          right; right; split; [exact X|lia]].
          * lia.
      - exists s. split; [reflexivity|]. split; [apply scat_rel_refl; exact Hc|].
        apply andb_false_iff in E. split.
        + destruct E as [E|E]; [left; lia|right; left; exact E].
        + intros Hlt Hgo. destruct E as [E|E]; [lia|congruence].
    Qed.
  End Scat.

  (** Shape of the scattered search's result. *)
  Inductive scat_search_result (limit : Z) : search_result N -> Prop :=
  | scr_whole : forall tr, length tr = 2%nat ->
      scat_search_result limit (mkSR N (Some (nofZ N 0, nofZ N 1)) 2 tr)
  | scr_found : forall c ev tr,
      ev = Z.of_nat (length tr) -> 2 <= ev <= Z.max 2 limit ->
      scat_point c -> le_eps N (f (x_from_t N c)) = false ->
      scat_search_result limit (mkSR N (Some (around N c)) ev tr)
  | scr_nothing : forall ev tr,
      ev = Z.of_nat (length tr) -> 2 <= ev -> Z.max 2 limit = ev ->
      scat_search_result limit (mkSR N None ev tr).

  Lemma scattered_spec : forall fuel limit,
    order_ok N ->
    1 <= limit <= max_scattered -> limit < Z.of_nat fuel ->
    exists r, scattered_search N f fuel limit = Done r /\ scat_search_result limit r.
  Proof.
    intros fuel limit HO Hl Hf. unfold scattered_search.
    cbn [search_start]. 
    set (s := mkSS N _ _ _ _ _ _).
    destruct (le_eps N _ && le_eps N (ss_fc s)) eqn:Eb.
    - apply andb_prop in Eb. destruct Eb as [Eb1 Eb2].
      destruct (scat_outer_spec (gt_eps N) (le_eps N) fuel limit 2 0 s) as [s' [E [R [X P]]]];
        try (cbn; lia); try reflexivity; try apply Hl.
      change (2 ^ Z.of_nat 2) with 4 in E. rewrite E. cbn [obind].
      eexists; split; [reflexivity|].
      destruct R as [R1 R2 R3 R4 R5]. change (ss_ev s) with 2 in *.
      unfold search_finish, set_around.
      destruct (around N (ss_c s')) as [a b] eqn:Ea. cbn [set_range ss_fc ss_ev ss_tr ss_a ss_b].
      destruct (le_eps N (ss_fc s')) eqn:El.
      + apply scr_nothing; [exact R1|lia|].
        destruct X as [X|[X|[X Y]]]; [lia|congruence|].
        rewrite (gt_le_eps N HO _ X) in El. discriminate.
      + rewrite <- Ea. destruct R5 as [[Rc Rf]|[Rv Rp]]; [congruence|].
        apply scr_found; try assumption; try lia.
        rewrite <- Rv. exact El.
    - eexists; split; [reflexivity|]. apply scr_whole. reflexivity.
  Qed.

  (** The directed search. *)
  Lemma dir_outer_spec : forall fuel limit s,
    limit <= max_scattered ->
    counted s -> 0 <= ss_ev s ->
    Z.max 0 (limit - ss_ev s) + 1 < Z.of_nat fuel ->
    exists s', dir_outer N f fuel limit s = Done s' /\ scat_rel limit s s' /\
               (limit <= ss_ev s' \/ is_zero N (ss_fc s') = false).
  Proof.
    induction fuel as [|fu IH]; intros limit s Hl Hc H0 Hf; [lia|].
    cbn [Maq.dir_outer].
    destruct (is_zero N (ss_fc s) && (ss_ev s <? limit)) eqn:E.
    - apply andb_prop in E. destruct E as [E1 E2].
      destruct (scat_outer_spec (gt_zero N) (is_zero N) fu limit 2 0 s)
        as [s1 [E3 [R [X P]]]]; try assumption; try lia.
      change (2 ^ Z.of_nat 2) with 4 in E3. rewrite E3. cbn [obind].
      pose proof (P ltac:(lia) E1) as Hprog.
      pose proof (sc_ev _ _ _ R) as Hev.
      destruct (IH limit s1) as [s2 [E4 [R2 X2]]]; try assumption; try lia.
      { apply (sc_counted _ _ _ R). }
      exists s2. split; [exact E4|]. split; [apply (scat_rel_trans _ _ _ _ R R2)|exact X2].
    - exists s. split; [reflexivity|]. split; [apply scat_rel_refl; exact Hc|].
      apply andb_false_iff in E. destruct E as [E|E]; [right; exact E|left; lia].
  Qed.

  Lemma dir_refine_spec : forall fuel limit s,
    limit <= max_refined ->
    counted s -> valued s -> 0 <= ss_ev s ->
    Z.max 0 (limit - ss_ev s) < Z.of_nat fuel ->
    exists s', dir_refine N f fuel limit s = Done s' /\ counted s' /\ valued s' /\
               ss_ev s <= ss_ev s' <= Z.max (ss_ev s) (limit + 1).
  Proof.
    induction fuel as [|fu IH]; intros limit s Hl Hc Hv H0 Hf; [lia|].
    cbn [Maq.dir_refine]. unfold max_refined in Hl.
    destruct (le_eps N (ss_fc s) && (ss_ev s <? limit) &&
              nltb N (neps N) (nsub N (ss_b s) (ss_a s))) eqn:E.
    2:{ exists s. split; [reflexivity|]. repeat split; try assumption; lia. }
    apply andb_prop in E. destruct E as [E _]. apply andb_prop in E. destruct E as [E1 E2].
    set (d := ndiv N (nadd N (ss_a s) (ss_c s)) (nofZ N 2)).
    destruct (probe_spec N f s d Hc) as [Hvd Hpd].
    destruct Hpd as [Hcd Hevd]; [lia|].
    set (sd := probe N f s d) in *.
    destruct (gt_eps N (ss_fc sd)).
    { exists sd. split; [reflexivity|]. repeat split; try assumption; lia. }
    set (s1 := if nleb N (ss_fc sd) (ss_fc s) then _ else _).
    assert (H1 : counted s1 /\ valued s1 /\ ss_ev s1 = ss_ev s + 1).
    { subst s1. destruct (nleb N (ss_fc sd) (ss_fc s)); repeat split; try assumption. }
    destruct H1 as [Hc1 [Hv1 Hev1]].
    set (e := ndiv N (nadd N (ss_c s1) (ss_b s1)) (nofZ N 2)).
    destruct (probe_spec N f s1 e Hc1) as [Hve Hpe].
    destruct Hpe as [Hce Heve]; [lia|].
    set (se := probe N f s1 e) in *.
    destruct (gt_eps N (ss_fc se)).
    { exists se. split; [reflexivity|]. repeat split; try assumption; lia. }
    set (s2 := if nltb N (ss_fc se) (ss_fc s1) then _ else _).
    assert (H2 : counted s2 /\ valued s2 /\ ss_ev s2 = ss_ev s + 2).
    { subst s2. destruct (nltb N (ss_fc se) (ss_fc s1)); repeat split; try assumption;
        cbn [ss_ev]; lia. }
    destruct H2 as [Hc2 [Hv2 Hev2]].
    destruct (IH limit s2) as [s' [E' [Hc' [Hv' Hev']]]]; try assumption; try (unfold max_refined; lia).
    exists s'. repeat split; try assumption; lia.
  Qed.

  Inductive dir_search_result (limit : Z) : search_result N -> Prop :=
  | dsr_whole : forall tr, length tr = 2%nat ->
      dir_search_result limit (mkSR N (Some (around N (c0_mid N))) 2 tr)
  | dsr_found : forall c ev tr,
      ev = Z.of_nat (length tr) -> 2 <= ev <= Z.max 2 (limit + 1) ->
      dir_search_result limit (mkSR N (Some (around N c)) ev tr)
  | dsr_nothing : forall ev tr,
      ev = Z.of_nat (length tr) -> ev = Z.max 2 limit ->
      dir_search_result limit (mkSR N None ev tr).

  Lemma directed_spec : forall fuel limit,
    1 <= limit <= max_refined -> limit + 1 < Z.of_nat fuel ->
    exists r, directed_search N f fuel limit = Done r /\ dir_search_result limit r.
  Proof.
    intros fuel limit Hl Hf. unfold directed_search.
    cbn [search_start].
    set (s := mkSS N _ _ _ _ _ _).
    assert (Hsc : counted s) by reflexivity.
    assert (Hsv : valued s) by reflexivity.
    destruct (le_eps N _ && le_eps N (ss_fc s)) eqn:Eb.
    - assert (Hl' : limit <= max_scattered) by (unfold max_scattered, max_refined in *; lia).
      destruct (dir_outer_spec fuel limit s Hl') as [s1 [E [R X]]];
        try reflexivity; try (cbn; lia).
      rewrite E. cbn [obind].
      destruct R as [R1 R2 R3 R4 R5]. change (ss_ev s) with 2 in *.
      destruct (is_zero N (ss_fc s1)) eqn:Ez.
      + eexists; split; [reflexivity|]. apply dsr_nothing; [exact R1|].
        destruct X as [X|X]; [lia|discriminate].
      + destruct (around N (ss_c s1)) as [a b] eqn:Ea.
        assert (Hv1 : valued s1).
        { destruct R5 as [[Rc Rf]|[Rv _]]; [|exact Rv].
          unfold Maq_search_proofs.valued. rewrite Rc, Rf. exact Hsv. }
        destruct (dir_refine_spec fuel limit (set_around N s1)) as [s2 [E2 [Hc2 [Hv2 Hev2]]]];
          try apply Hl.
        * unfold set_around; rewrite Ea. exact R1.
        * unfold set_around; rewrite Ea. exact Hv1.
        * unfold set_around; rewrite Ea. cbn [set_range ss_ev]. lia.
        * unfold set_around; rewrite Ea. cbn [set_range ss_ev]. lia.
        * rewrite E2. cbn [obind]. eexists; split; [reflexivity|].
          unfold set_around in Hev2; rewrite Ea in Hev2. cbn [set_range ss_ev] in Hev2.
          unfold search_whole, set_around.
          destruct (around N (ss_c s2)) as [a2 b2] eqn:Ea2.
          cbn [set_range ss_ev ss_a ss_b ss_tr]. rewrite <- Ea2.
          apply dsr_found; [exact Hc2|lia].
    - eexists; split; [reflexivity|]. unfold search_whole, set_around.
      change (ss_c s) with (c0_mid N).
      destruct (around N (c0_mid N)) as [a b] eqn:Ea.
      cbn [set_range ss_ev ss_a ss_b ss_tr]. rewrite <- Ea.
      apply dsr_whole. reflexivity.
  Qed.
End P.
