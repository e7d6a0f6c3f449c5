(** * Ranges found in double precision *)
From Coq Require Import ZArith Reals Lra Lia Bool List.
From Coq Require Import Floats.SpecFloat.
From Flocq Require Import Core BinarySingleNaN.
From Verif Require Import Num Maq Maq_spec Maq_search_proofs Maq_search_proofs2 Maq_loop_proofs Maq_proofs
  Double_spec Double_proofs Double_proofs2 Maq_double_spec Maq_double_proofs.
Import ListNotations.
Local Open Scope R_scope.

Section P.
  Variable f : F64 -> F64.

  Definition inside (m : method) (limit : Z) (ab : F64 * F64) : Prop :=
    exists A B, holds (fst ab) A /\ holds (snd ab) B /\ -1 <= A <= B /\ B <= 2 /\
      ((limit <= 4194304)%Z -> 0 <= A /\ B <= 1) /\
      ((A = 0 /\ B = 1) \/ exists t T, holds t T /\ A <= T <= B /\ promised f m t).

  Lemma zero_ok : holds (nofZ F64 0) 0.
  Proof. split; [reflexivity|]. split; reflexivity. Qed.
  Lemma one_is : holds (nofZ F64 1) 1.
  Proof. rewrite <- rnd64_1. apply (ofZ_ok 1 0); [lia|]. cbn. lia. Qed.
  Lemma half_is : holds (half F64) (1 / 2).
  Proof. split; [reflexivity|]. split; [reflexivity|]. unfold value, SF2R, F2R. cbn. lra. Qed.
  Lemma mid_is : holds (c0_mid F64) (1 / 2).
  Proof. split; [reflexivity|]. split; [reflexivity|]. unfold value, SF2R, F2R. cbn. lra. Qed.

  Lemma inside_whole : forall m limit, inside m limit (nofZ F64 0, nofZ F64 1).
  Proof.
    intros m limit. exists 0, 1. split; [exact zero_ok|]. split; [exact one_is|]. split; [lra|]. split; [lra|].
    split; [lra|]. left. lra.
  Qed.

  Lemma at_same : forall t, at_point f t = f (x_from_t F64 t).
  Proof. reflexivity. Qed.

  Lemma pow_small : forall (k : nat) limit d, (0 < d <= 4)%Z -> (2 ^ Z.of_nat k / d < limit)%Z -> (limit <= 1073741824)%Z ->
    (k <= 31)%nat.
  Proof.
    intros k limit d Hd H Hl. destruct (le_lt_dec k 31) as [L|L]; [exact L|exfalso].
    assert (2 ^ 32 <= 2 ^ Z.of_nat k)%Z by (apply Z.pow_le_mono_r; lia).
    change (2 ^ 32)%Z with 4294967296%Z in *. pose proof (Z.div_mod (2 ^ Z.of_nat k) d ltac:(lia)).
    pose proof (Z.mod_pos_bound (2 ^ Z.of_nat k) d ltac:(lia)). nia.
  Qed.
  Lemma index_small : forall (k : nat) j limit d, (0 < d <= 4)%Z -> (2 ^ Z.of_nat k / d < limit)%Z -> (limit <= 4194304)%Z ->
    (j < 2 ^ Z.of_nat k)%Z -> (j < 16777216)%Z.
  Proof.
    intros k j limit d Hd H Hl Hj. pose proof (Z.div_mod (2 ^ Z.of_nat k) d ltac:(lia)).
    pose proof (Z.mod_pos_bound (2 ^ Z.of_nat k) d ltac:(lia)). nia.
  Qed.

  Lemma inside_bin : forall limit (k : nat) j, (1 <= limit <= 1073741824)%Z -> (2 <= k)%nat -> (2 ^ Z.of_nat k / 2 < limit)%Z ->
    (0 < j < 2 ^ Z.of_nat k)%Z -> hit F64 f (bin_c F64 j (2 ^ Z.of_nat k)) ->
    inside BINARY_SUBDIVISION limit (bin_a F64 j (2 ^ Z.of_nat k), bin_b F64 j (2 ^ Z.of_nat k)).
  Proof.
    intros limit k j Hl Hk Hkl Hj Hh. pose proof (pow_small k limit 2 ltac:(lia) Hkl ltac:(lia)).
    destruct (bin_ok k j) as (A & C & B & HA & HC & HB & L1 & L2 & L3); [lia|lia|].
    exists A, B. split; [exact HA|]. split; [exact HB|]. split; [lra|]. split; [lra|]. split.
    - intros L. pose proof (L3 (index_small k j limit 2 ltac:(lia) Hkl L ltac:(lia))). lra.
    - right. exists (bin_c F64 j (2 ^ Z.of_nat k)), C. split; [exact HC|]. split; [lra|exact Hh].
  Qed.
  Lemma inside_rev : forall m limit (k : nat) j d, (1 <= limit <= 1073741824)%Z -> (0 < d <= 4)%Z -> (2 <= k)%nat ->
    (2 ^ Z.of_nat k / d < limit)%Z -> (0 < j < 2 ^ Z.of_nat k)%Z -> promised f m (rev_c F64 j (2 ^ Z.of_nat k)) ->
    inside m limit (rev_a F64 j (2 ^ Z.of_nat k), rev_b F64 j (2 ^ Z.of_nat k)).
  Proof.
    intros m limit k j d Hl Hd Hk Hkl Hj Hh. pose proof (pow_small k limit d ltac:(lia) Hkl ltac:(lia)).
    destruct (rev_ok k j) as (A & C & B & HA & HC & HB & L1 & L2 & L3 & L4); [lia|lia|].
    exists A, B. split; [exact HA|]. split; [exact HB|]. split; [lra|]. split; [lra|]. split.
    - intros L. pose proof (L4 (index_small k j limit d ltac:(lia) Hkl L ltac:(lia))). lra.
    - right. exists (rev_c F64 j (2 ^ Z.of_nat k)), C. split; [exact HC|]. split; [lra|exact Hh].
  Qed.

  Lemma twice_ok : forall c C, holds c C -> 0 <= C <= 1 -> holds (nmul F64 (nofZ F64 2) c) (2 * C).
  Proof.
    intros c C (Dc & Fc & <-) B. destruct two_ok as (D2 & F2 & E2). unfold two in *.
    destruct (mul_value 53 1024 p53' e1024' (nofZ F64 2) c D2 Dc F2 Fc) as [F E].
    { rewrite E2, (twice_exact c Dc Fc). rewrite <- (twice_exact c Dc Fc). apply small_ok'. lra. }
    rewrite E2, (twice_exact c Dc Fc) in E.
    split; [apply (valid_mul 53 1024 p53' e1024'); assumption|]. split; assumption.
  Qed.

  Lemma around_ok : forall c C, holds c C -> 0 <= C <= 1 ->
    exists A B, holds (fst (around F64 c)) A /\ holds (snd (around F64 c)) B /\ 0 <= A <= C /\ C <= B <= 1.
  Proof.
    intros c C H BC. pose proof (twice_ok c C H BC) as H2. unfold around.
    destruct (nltb F64 c (half F64)) eqn:E.
    - apply (ltb_value 53 1024) in E; try apply H; try apply half_is.
      destruct H as (Dc & Fc & <-). rewrite (proj2 (proj2 half_is)) in E.
      exists 0, (2 * value c). split; [exact zero_ok|]. split; [exact H2|]. cbn. lra.
    - assert (E' : 1 / 2 <= C).
      { destruct (Rlt_le_dec C (1 / 2)) as [L|L]; [exfalso|exact L].
        assert (nltb F64 c (half F64) = true); [|congruence].
        apply (ltb_value 53 1024); try apply H; try apply half_is.
        destruct H as (_ & _ & ->). rewrite (proj2 (proj2 half_is)). exact L. }
      exists (rnd 53 1024 (2 * C - 1)), 1. split; [|split; [exact one_is|]].
      + destruct H2 as (D2 & F2 & E2). destruct one_is as (D1 & F1 & E1). cbn [fst].
        destruct (sub_value 53 1024 p53' e1024' _ _ D2 D1 F2 F1) as [F V]; [rewrite E1, E2; apply small_ok'; lra|].
        rewrite E1, E2 in V. split; [apply (valid_sub 53 1024 p53' e1024'); assumption|]. split; assumption.
      + pose proof (value_format 53 1024 c (proj1 H)) as Fm. destruct H as (Dc & Fc & Ec). rewrite Ec in Fm.
        split; [|lra]. split.
        * rewrite <- rnd64_0 at 1. apply (rnd_le 53 1024 p53'). lra.
        * rewrite <- Fm at 2. apply (rnd_le 53 1024 p53'). lra.
  Qed.

  Lemma inside_around : forall m limit c C, holds c C -> 0 <= C <= 1 -> promised f m c -> inside m limit (around F64 c).
  Proof.
    intros m limit c C H B P. destruct (around_ok c C H B) as (A & B' & HA & HB & L1 & L2).
    exists A, B'. split; [exact HA|]. split; [exact HB|]. split; [lra|]. split; [lra|]. split; [lra|].
    right. exists c, C. split; [exact H|]. split; [lra|exact P].
  Qed.

  Lemma scat_ok : forall c, scat_point F64 c -> exists C, holds c C /\ 0 <= C <= 1.
  Proof.
    intros c (k & i & Hk & Hi & ->). destruct (rev_ok k i Hk Hi) as (A & C & B & _ & HC & _ & L1 & L2 & L3 & _).
    exists C. split; [exact HC|lra].
  Qed.

  (** ** The directed search *)
  Definition dir_ok (s : sstate F64) : Prop :=
    exists A C B, holds (ss_a s) A /\ holds (ss_c s) C /\ holds (ss_b s) B /\ 0 <= A <= C /\ C <= B <= 1.

  Lemma mid_ok : forall x y X Y, holds x X -> holds y Y -> 0 <= X <= Y -> Y <= 1 ->
    exists M, holds (ndiv F64 (nadd F64 x y) (nofZ F64 2)) M /\ X <= M <= Y.
  Proof.
    intros x y X Y (Dx & Fx & <-) (Dy & Fy & <-) H1 H2.
    destruct (mid_between x y x y) as (D & F & L); try assumption; try (split; [assumption|split; [assumption|lra]]); try lra.
    eexists. split; [split; [exact D|]; split; [exact F|reflexivity]|exact L].
  Qed.

  Definition nn_num (v : F64) : Prop := nleb F64 zero v = true.
  Definition nn_all : Prop := forall x, double x -> nn_num (f x).
  Definition not_zero (v : F64) : Prop := neqb F64 v zero = false.

  Lemma x_double : forall c, double c -> double (x_from_t F64 c).
  Proof.
    intros c D. unfold x_from_t. destruct (neqb F64 c (nofZ F64 0)); [reflexivity|].
    apply (valid_sub 53 1024 p53' e1024'); [|apply one_is].
    apply (valid_div 53 1024 p53' e1024'); [apply one_is|exact D].
  Qed.

  Lemma gt_eps_nz : forall v, gt_eps F64 v = true -> not_zero v.
  Proof. intros [[]|[]| |[] m e] H; try discriminate; reflexivity. Qed.

  Lemma larger_nz : forall u v, nn_num u -> not_zero v -> nn_num v ->
    nleb F64 u v = false \/ nltb F64 u v = false -> not_zero u.
  Proof.
    intros u v Nu Zv Nv H. unfold not_zero, nn_num in *.
    destruct u as [[]|[]| |[] m e]; try reflexivity; exfalso;
      destruct v as [[]|[]| |[] m' e']; try discriminate; destruct H; discriminate.
  Qed.

  Lemma dir_refine_ok : forall fuel limit s s',
    dir_ok s -> valued F64 f s -> dir_refine F64 f fuel limit s = Done s' ->
    (exists C, holds (ss_c s') C /\ 0 <= C <= 1) /\ valued F64 f s' /\
    (nn_all -> not_zero (ss_fc s) -> not_zero (ss_fc s')).
  Proof.
    induction fuel as [|fu IH]; intros limit s s' Hok Hv H; [discriminate|].
    destruct Hok as (A & C & B & HA & HC & HB & H1 & H2).
    cbn [dir_refine] in H.
    destruct (_ && _ && _) eqn:Econd.
    2:{ injection H as <-. split; [exists C; split; [exact HC|lra]|]. split; [exact Hv|]. auto. }
    destruct (mid_ok _ _ A C HA HC) as (D & HD & BD); [lra|lra|].
    set (d := ndiv F64 (nadd F64 (ss_a s) (ss_c s)) (nofZ F64 2)) in *.
    set (sd := probe F64 f s d) in *.
    assert (Nd : nn_all -> nn_num (ss_fc sd)) by (intros Nn; apply Nn, x_double, HD).
    assert (Ns : nn_all -> nn_num (ss_fc s)) by (intros Nn; rewrite Hv; apply Nn, x_double, HC).
    destruct (gt_eps F64 (ss_fc sd)) eqn:Egd.
    { injection H as <-. split; [exists D; split; [exact HD|lra]|]. split; [reflexivity|].
      intros _ _. apply gt_eps_nz. exact Egd. }
    set (s1 := if nleb F64 (ss_fc sd) (ss_fc s) then _ else _) in *.
    assert (Hs1 : dir_ok s1 /\ valued F64 f s1 /\ (nn_all -> not_zero (ss_fc s) -> not_zero (ss_fc s1))).
    { subst s1. destruct (nleb F64 (ss_fc sd) (ss_fc s)) eqn:El.
      - split; [exists D, C, B; repeat split; try apply HC; try apply HB; try apply HD; try lra|].
        split; [exact Hv|]. auto.
      - split; [exists A, D, C; repeat split; try apply HC; try apply HA; try apply HD; try lra|].
        split; [reflexivity|]. intros Nn Nz. cbn [ss_fc]. apply (larger_nz _ (ss_fc s)); auto. }
    destruct Hs1 as [(A1 & C1 & B1 & HA1 & HC1 & HB1 & H11 & H12) [Hv1 Hp1]].
    destruct (mid_ok _ _ C1 B1 HC1 HB1) as (E & HE & BE); [lra|lra|].
    set (e := ndiv F64 (nadd F64 (ss_c s1) (ss_b s1)) (nofZ F64 2)) in *.
    set (se := probe F64 f s1 e) in *.
    assert (Ne : nn_all -> nn_num (ss_fc se)) by (intros Nn; apply Nn, x_double, HE).
    assert (Ns1 : nn_all -> nn_num (ss_fc s1)) by (intros Nn; rewrite Hv1; apply Nn, x_double, HC1).
    destruct (gt_eps F64 (ss_fc se)) eqn:Ege.
    { injection H as <-. split; [exists E; split; [exact HE|lra]|]. split; [reflexivity|].
      intros _ _. apply gt_eps_nz. exact Ege. }
    set (s2 := if nltb F64 (ss_fc se) (ss_fc s1) then _ else _) in *.
    assert (Hs2 : dir_ok s2 /\ valued F64 f s2 /\ (nn_all -> not_zero (ss_fc s) -> not_zero (ss_fc s2))).
    { subst s2. destruct (nltb F64 (ss_fc se) (ss_fc s1)) eqn:El.
      - split; [exists A1, C1, E; repeat split; try apply HC1; try apply HA1; try apply HE; try lra|].
        split; [exact Hv1|]. auto.
      - split; [exists C1, E, B1; repeat split; try apply HC1; try apply HB1; try apply HE; try lra|].
        split; [reflexivity|]. intros Nn Nz. cbn [ss_fc].
        apply (larger_nz _ (ss_fc s1)); auto. }
    destruct Hs2 as [Hok2 [Hv2 Hp2]].
    destruct (IH limit s2 s' Hok2 Hv2 H) as [I1 [I2 I3]].
    split; [exact I1|]. split; [exact I2|]. auto.
  Qed.

  Lemma dir_range_ok : forall fuel limit r, (1 <= limit <= max_limit)%Z ->
    directed_search F64 f fuel limit = Done r -> forall ab, sr_range r = Some ab -> inside DIRECTED limit ab.
  Proof.
    intros fuel limit r Hl H ab Hr.
    assert (H' : directed_search F64 f (fuel + Z.to_nat limit + 3) limit = Done r).
    { change (search F64 f DIRECTED (fuel + Z.to_nat limit + 3) limit = Done r).
      apply (search_fuel F64 f DIRECTED limit fuel); [lia|exact H]. }
    clear H. rename H' into H.
    set (fu := (fuel + Z.to_nat limit + 3)%nat) in *.
    unfold directed_search in H. cbn [search_start] in H.
    set (s := mkSS F64 _ _ _ _ _ _) in *.
    assert (Hsc : counted F64 s) by reflexivity.
    assert (Hsv : valued F64 f s) by reflexivity.
    destruct (le_eps F64 _ && le_eps F64 (ss_fc s)) eqn:Eb.
    - assert (Hl' : (limit <= max_scattered)%Z) by (unfold max_scattered, max_limit in *; lia).
      destruct (dir_outer_spec F64 f fu limit s Hl') as [s1 [E [R X]]];
        try reflexivity; try (cbn; lia).
      rewrite E in H. cbn [obind] in H.
      destruct R as [R1 R2 R3 R4 R5].
      assert (Hc1 : exists C, holds (ss_c s1) C /\ 0 <= C <= 1).
      { destruct R5 as [[Rc _]|[_ Rp]].
        - exists (1 / 2). rewrite Rc. split; [exact mid_is|lra].
        - apply scat_ok. exact Rp. }
      assert (Hv1 : valued F64 f s1).
      { destruct R5 as [[Rc Rf]|[Rv _]]; [|exact Rv].
        unfold valued. rewrite Rc, Rf. exact Hsv. }
      destruct (is_zero F64 (ss_fc s1)) eqn:Ez.
      { injection H as <-. discriminate. }
      destruct Hc1 as [c1 [Ec1 Hc1]].
      destruct (around_ok (ss_c s1) c1 Ec1 Hc1) as (a & b & Ea & Eb1 & Ha & Hb).
      destruct (dir_refine F64 f fu limit (set_around F64 s1)) as [s2| |] eqn:E2; try discriminate.
      cbn [obind] in H. injection H as <-.
      destruct (dir_refine_ok fu limit (set_around F64 s1) s2) as [[c2 [Ec2 Hc2]] [Hv2 Hp2]].
      { unfold set_around. destruct (around F64 (ss_c s1)) as [x y]. cbn [set_range ss_a ss_b ss_c fst snd] in *.
        exists a, c1, b. repeat split; try apply Ea; try apply Ec1; try apply Eb1; lra. }
      { unfold set_around. destruct (around F64 (ss_c s1)) as [x y]. exact Hv1. }
      { exact E2. }
      assert (Er : ab = around F64 (ss_c s2)).
      { unfold search_whole, set_around in Hr. destruct (around F64 (ss_c s2)) as [x y].
        cbn [set_range ss_a ss_b sr_range] in Hr. injection Hr as <-. reflexivity. }
      rewrite Er. apply (inside_around _ _ _ c2); [exact Ec2|exact Hc2|].
      cbn [promised]. intros Nn. rewrite at_same, <- Hv2. apply Hp2; [exact Nn|].
      unfold set_around. destruct (around F64 (ss_c s1)) as [x y]. exact Ez.
    - injection H as <-. unfold search_whole, set_around in Hr.
      change (ss_c s) with (c0_mid F64) in Hr.
      assert (Ea : around F64 (c0_mid F64) = (nofZ F64 0, nofZ F64 1)) by reflexivity.
      rewrite Ea in Hr. cbn [set_range ss_a ss_b sr_range] in Hr. injection Hr as <-. apply inside_whole.
  Qed.

  Lemma search_range_ok : forall m fuel limit r ab, (1 <= limit <= 1073741824)%Z ->
    search F64 f m fuel limit = Done r -> sr_range r = Some ab -> inside m limit ab.
  Proof.
    intros m fuel limit r ab Hl H Hr.
    pose proof (search_fuel F64 f m limit fuel (fuel + Z.to_nat limit + 3) r ltac:(lia) H) as H'.
    destruct m; cbn [search] in H, H'.
    - destruct (binary_spec F64 f F64_order_ok (fuel + Z.to_nat limit + 3) limit) as [r' [E R]];
        try (unfold max_limit, max_scattered, max_refined; lia); try (left; lia).
      rewrite E in H'. injection H' as <-.
      destruct R; cbn [sr_range] in Hr; try discriminate; injection Hr as <-;
        [apply inside_whole|apply inside_bin; assumption].
    - destruct (reverse_spec F64 f F64_order_ok (fuel + Z.to_nat limit + 3) limit) as [r' [E R]];
        try (unfold max_limit, max_scattered, max_refined; lia); try (left; lia).
      rewrite E in H'. injection H' as <-.
      destruct R; cbn [sr_range] in Hr; try discriminate; injection Hr as <-;
        [apply inside_whole|apply (inside_rev _ _ _ _ 2); try assumption; lia].
    - destruct (low_spec F64 f F64_order_ok (fuel + Z.to_nat limit + 3) limit) as [r' [E R]];
        try (unfold max_limit, max_scattered, max_refined; lia); try (left; lia).
      rewrite E in H'. injection H' as <-.
      destruct R; cbn [sr_range] in Hr; try discriminate; injection Hr as <-;
        [apply inside_whole|apply (inside_rev _ _ _ _ 4); try assumption; lia].
    - destruct (scattered_spec F64 f (fuel + Z.to_nat limit + 3) limit F64_order_ok) as [r' [E R]];
        try (unfold max_limit, max_scattered, max_refined; lia); try (left; lia).
      rewrite E in H'. injection H' as <-.
      destruct R as [tr Ht|c ev tr Hev Hb Hp Hle|]; cbn [sr_range] in Hr; try discriminate; injection Hr as <-;
        [apply inside_whole|].
      destruct (scat_ok c Hp) as (C & HC & BC). apply (inside_around _ _ _ C); assumption.
    - apply (dir_range_ok _ _ _ Hl H ab Hr).
  Qed.

  Lemma holds_le : forall x y X Y, holds x X -> holds y Y -> X <= Y -> nleb F64 x y = true.
  Proof.
    intros x y X Y (Dx & Fx & <-) (Dy & Fy & <-) H. apply (leb_value 53 1024); assumption.
  Qed.
  Lemma holds_finite : forall x X, holds x X -> finite x.
  Proof. intros [s|s| |s m e] X (_ & F & _); try discriminate; exact Logic.I. Qed.
  Lemma holds_eq : forall x y X, holds x X -> holds y X -> neqb F64 x y = true.
  Proof.
    intros x y X Hx Hy. pose proof (holds_le x y X X Hx Hy ltac:(lra)) as L1. pose proof (holds_le y x X X Hy Hx ltac:(lra)) as L2.
    cbn [nleb neqb F64] in *. unfold SFleb, SFeqb in *.
    destruct (SFcompare x y) as [[]|] eqn:E; try discriminate; try reflexivity.
    rewrite (SFcompare_antisym_lt _ _ E) in L2. discriminate.
  Qed.

  Lemma inside_found : forall m limit a b, inside m limit (a, b) ->
    range_found f m a b /\ ((limit <= 4194304)%Z -> nleb F64 zero a = true /\ nleb F64 b one = true).
  Proof.
    intros m limit a b (A & B & HA & HB & L1 & L2 & L3 & P). cbn [fst snd] in *.
    split; [|intros L; destruct (L3 L); split; [apply (holds_le _ _ 0 A zero_ok HA)|apply (holds_le _ _ B 1 HB one_is)]; lra].
    split; [apply HA|]. split; [apply HB|]. split; [apply (holds_finite _ _ HA)|]. split; [apply (holds_finite _ _ HB)|].
    split; [apply (holds_le _ _ A B HA HB); lra|].
    destruct P as [[EA EB]|(t & T & HT & BT & P)].
    - left. subst A B. split; [apply (holds_eq _ _ 0 HA zero_ok)|apply (holds_eq _ _ 1 HB one_is)].
    - right. exists t. split; [apply HT|]. split; [apply (holds_le _ _ A T HA HT); lra|].
      split; [apply (holds_le _ _ T B HT HB); lra|exact P].
  Qed.

  Lemma range_double : forall s fuel r a b, limits_ok s -> MAQ F64 f fuel s = Done r -> mr_range r = Some (a, b) ->
    range_found f (set_method s) a b /\
    ((set_search_limit s <= 4194304)%Z -> nleb F64 zero a = true /\ nleb F64 b one = true).
  Proof.
    intros s fuel r a b Hs H Hr.
    destruct (MAQ_range_inv F64 f F64_order_ok s fuel r a b Hs H Hr) as [sr [E [Er _]]].
    apply inside_found. apply (search_range_ok _ fuel _ sr); [apply Hs|exact E|exact Er].
  Qed.

  (** ** The sign of the integral *)
  Definition dn (x : F64) : Prop := double x /\ nn x.
  Definition Q (a b : F64) : Prop := within (-2) 2 a /\ within (-2) 2 b /\ value a <= value b.
  Definition T (t g : F64) : Prop := dn g.

  Lemma dn_add : forall x y, dn x -> dn y -> dn (nadd F64 x y).
  Proof. intros x y [D1 N1] [D2 N2]. split; [apply (valid_add 53 1024 p53' e1024'); assumption|apply nn_add; assumption]. Qed.
  Lemma dn_mul : forall x y, dn x -> dn y -> dn (nmul F64 x y).
  Proof. intros x y [D1 N1] [D2 N2]. split; [apply (valid_mul 53 1024 p53' e1024'); assumption|apply nn_mul; assumption]. Qed.
  Lemma dn_div : forall x y, dn x -> double y -> pos y -> dn (ndiv F64 x y).
  Proof. intros x y [D1 N1] D2 N2. split; [apply (valid_div 53 1024 p53' e1024'); assumption|apply nn_div; assumption]. Qed.

  Hypothesis Hf : forall x, double x -> double (f x) /\ not_negative (f x).

  Lemma f_dn : forall x, double x -> dn (f x).
  Proof. intros x D. destruct (Hf x D) as [H1 H2]. split; [exact H1|]. apply nn_not_negative. exact H2. Qed.

  Lemma eval_dn : forall t, double t -> finite_ t -> dn (eval_at F64 f t).
  Proof.
    intros t D F. unfold eval_at. apply dn_div; [apply f_dn, x_double, D| |apply pos_square; assumption].
    apply (valid_mul 53 1024 p53' e1024'); assumption.
  Qed.
  Lemma left_dn : forall t, double t -> finite_ t -> dn (eval_left F64 f t).
  Proof.
    intros t D F. unfold eval_left. destruct (neqb F64 t (nofZ F64 0)).
    - apply dn_div; [apply f_dn, x_double, D|apply one_is|exact Logic.I].
    - apply eval_dn; assumption.
  Qed.

  Lemma HQ : forall a b c, Q a b -> midpoint F64 a b c -> Q a c /\ Q c b /\ T c (eval_at F64 f c).
  Proof.
    intros a b c (Wa & Wb & L) M.
    assert (Hc : double c /\ finite_ c /\ value a <= value c <= value b).
    { destruct Wa as (Da & Fa & Ba). destruct Wb as (Db & Fb & Bb).
      destruct M as [-> | ->]; apply mid_between; try assumption; try (split; [assumption|split; assumption]); lra. }
    destruct Hc as (Dc & Fc & Bc).
    assert (Wc : within (-2) 2 c) by (destruct Wa as (_ & _ & Ba); destruct Wb as (_ & _ & Bb); split; [exact Dc|split; [exact Fc|lra]]).
    split; [split; [exact Wa|split; [exact Wc|lra]]|]. split; [split; [exact Wc|split; [exact Wb|lra]]|].
    apply eval_dn; assumption.
  Qed.

  Lemma width_dn : forall a b, Q a b -> dn (nsub F64 b a).
  Proof.
    intros a b ((Da & Fa & Ba) & (Db & Fb & Bb) & L).
    assert (E : 0 <= rnd 53 1024 (value b - value a)) by (rewrite <- rnd64_0; apply (rnd_le 53 1024 p53'); lra).
    destruct (sub_value 53 1024 p53' e1024' b a Db Da Fb Fa) as [F V]; [apply small_ok'; lra|].
    split; [apply (valid_sub 53 1024 p53' e1024'); assumption|]. apply (nn_value (SFsub 53 1024 b a)); [exact F|]. rewrite V. exact E.
  Qed.

  Lemma simpson_dn : forall a b ga gc gb, Q a b -> dn ga -> dn gc -> dn gb -> dn (simpson F64 a b ga gc gb).
  Proof.
    intros a b ga gc gb H Ga Gc Gb. unfold simpson. apply dn_mul.
    - apply dn_div; [apply width_dn, H|reflexivity|exact Logic.I].
    - apply dn_add; [|exact Gb]. apply dn_add; [exact Ga|]. apply dn_mul; [|exact Gc]. split; [reflexivity|exact Logic.I].
  Qed.

  Lemma integral_dn : forall (s : settings F64) fuel r, limits_ok s -> within 0 1 (set_tolerance s) ->
    MAQ F64 f fuel s = Done r -> not_negative (mr_integral r).
  Proof.
    intros s fuel r Hs Ht H. apply nn_not_negative.
    destruct (mr_range r) as [[a b]|] eqn:Hr.
    2:{ unfold MAQ in H. destruct (search F64 f (set_method s) fuel (set_search_limit s)) as [sr| |]; try discriminate.
        cbn [obind] in H. destruct (sr_range sr) as [[a b]|]; [|injection H as <-; exact Logic.I].
        destruct (nisnan F64 a); [injection H as <-; exact Logic.I|]. exfalso.
        unfold integrate_range in H.
        destruct (nisnan F64 (eval_left F64 f a)); [injection H as <-; discriminate|].
        destruct (nisnan F64 (eval_at F64 f b)); [injection H as <-; discriminate|].
        destruct (nisnan F64 (eval_at F64 f (ndiv F64 (nadd F64 a b) (nofZ F64 2)))); [injection H as <-; discriminate|].
        match type of H with obind ?o _ = _ => destruct o as [[[[[ex ig] cn] t2] ac]| |] end; try discriminate.
        injection H as <-. discriminate. }
    destruct (MAQ_range_inv F64 f F64_order_ok s fuel r a b Hs H Hr) as [sr [E [Er _]]].
    destruct (search_range_ok _ fuel _ sr (a, b) (proj1 Hs) E Er) as (A & B & HA & HB & L1 & L2 & _).
    cbn [fst snd] in *.
    assert (Hab : Q a b).
    { destruct HA as (Da & Fa & Ea). destruct HB as (Db & Fb & Eb).
      split; [split; [exact Da|split; [exact Fa|lra]]|]. split; [split; [exact Db|split; [exact Fb|lra]]|lra]. }
    destruct (MAQ_range_post F64 f F64_order_ok s fuel r a b T Q Hs HQ Hab) as (n0 & it & _ & P); try assumption.
    { apply left_dn; apply HA. }
    { apply eval_dn; apply HB. }
    destruct (mr_successful r) eqn:Es.
    2:{ rewrite (rp_fail _ _ _ _ _ _ _ _ _ _ _ P Es). exact Logic.I. }
    apply (rp_success _ _ _ _ _ _ _ _ _ _ _ P) in Es.
    destruct (rp_ok _ _ _ _ _ _ _ _ _ _ _ P Es) as (G1 & _ & G3 & ->).
    assert (R : dn (running_sum F64 (mr_accepted r))); [|apply R].
    clear - G1 G3 Ht Hf. induction (mr_accepted r) as [|x l IH]; cbn [running_sum]; [split; [reflexivity|exact Logic.I]|].
    inversion G1 as [|x' l' Hx Hl]; subst. destruct G3 as [Eb G3]. specialize (IH Hl G3).
    destruct Hx as (Hq & c & d & e & ga & gb & gc & gd & ge & Mc & Md & Me & Ta & Tb & Tc & Td & Te & E2 & Ec & Er).
    cbn [ac_before] in *.
    destruct (HQ _ _ _ Hq Mc) as (Q1 & Q2 & _).
    pose proof (simpson_dn _ _ ga gc gb Hq Ta Tc Tb) as S0.
    pose proof (simpson_dn _ _ ga gd gc Q1 Ta Td Tc) as S1.
    pose proof (simpson_dn _ _ gc ge gb Q2 Tc Te Tb) as S2.
    pose proof (dn_add _ _ S1 S2) as S3. rewrite <- E2 in S3.
    rewrite Eb in Er. rewrite Ec. split.
    - apply (valid_add 53 1024 p53' e1024').
      + apply (dn_add _ _ IH S3).
      + apply (valid_div 53 1024 p53' e1024'); [|reflexivity]. apply (valid_sub 53 1024 p53' e1024'); [apply S3|apply S0].
    - apply accept_nn with (tol := set_tolerance s); try apply IH; try apply S3; try apply S0; try exact Ht. exact Er.
  Qed.
End P.

(** ** As stated *)
Lemma tol_within : forall t, double t -> nltb F64 zero t = true -> nleb F64 t one = true -> within 0 1 t.
Proof.
  intros t D P L.
  assert (F : finite_ t) by (destruct t as [[]|[]| |[] m e]; try reflexivity; discriminate).
  split; [exact D|]. split; [exact F|].
  apply (ltb_value 53 1024 zero t) in P; try assumption; try apply zero_ok.
  apply (leb_value 53 1024 t one) in L; try assumption; try apply one_is.
  change zero with (nofZ F64 0) in P. change one with (nofZ F64 1) in L.
  rewrite (proj2 (proj2 zero_ok)) in P. rewrite (proj2 (proj2 one_is)) in L. lra.
Qed.

Lemma integral_not_negative : forall (f : F64 -> F64) (s : settings F64) fuel r,
  limits_ok s -> double (set_tolerance s) -> nltb F64 zero (set_tolerance s) = true -> nleb F64 (set_tolerance s) one = true ->
  (forall x, double x -> double (f x) /\ not_negative (f x)) ->
  MAQ F64 f fuel s = Done r -> not_negative (mr_integral r).
Proof.
  intros f s fuel r Hs D P L Hf H. apply (integral_dn f Hf s fuel); try assumption. apply tol_within; assumption.
Qed.

Lemma weighted_not_negative : forall (w d : F64 -> F64) (s : settings F64) fuel r,
  limits_ok s -> double (set_tolerance s) -> nltb F64 zero (set_tolerance s) = true -> nleb F64 (set_tolerance s) one = true ->
  (forall x, double x -> double (w x) /\ not_negative (w x)) -> (forall x, double x -> double (d x)) ->
  MAQ F64 (fun x => nmul F64 (w x) (nabs F64 (d x))) fuel s = Done r -> not_negative (mr_integral r).
Proof.
  intros w d s fuel r Hs D P L Hw Hd H.
  apply (integral_not_negative _ s fuel r Hs D P L) in H; [exact H|].
  intros x Dx. destruct (Hw x Dx) as [D1 N1]. specialize (Hd x Dx).
  assert (Da : double (nabs F64 (d x))) by (apply (valid_abs 53 1024); exact Hd).
  split; [apply (valid_mul 53 1024 p53' e1024'); assumption|].
  apply nn_not_negative. apply nn_mul; try assumption; [apply nn_not_negative, N1|].
  cbn [nabs F64]. destruct (d x) as [[]|[]| |[] m e]; exact Logic.I.
Qed.

(** 1 / (1 + x)^2. *)
Definition inverse_square (x : F64) : F64 :=
  let y := nadd F64 one x in ndiv F64 one (nmul F64 y y).

Lemma inverse_square_ok : forall x, double x -> double (inverse_square x) /\ nleb F64 zero (inverse_square x) = true \/ inverse_square x = S754_nan.
Proof.
  intros x D. unfold inverse_square. set (y := nadd F64 one x).
  assert (Dy : double y) by (apply (valid_add 53 1024 p53' e1024'); [reflexivity|exact D]).
  assert (Ds : double (nmul F64 y y)) by (apply (valid_mul 53 1024 p53' e1024'); exact Dy).
  assert (P : pos (nmul F64 y y)).
  { destruct y as [b|[]| |b m e] eqn:Ey; try exact Logic.I; apply pos_square; try exact Dy; reflexivity. }
  assert (Dq : double (ndiv F64 one (nmul F64 y y))) by (apply (valid_div 53 1024 p53' e1024'); [reflexivity|exact Ds]).
  assert (Nq : nn (ndiv F64 one (nmul F64 y y))) by (apply nn_div; [reflexivity|exact Ds|exact Logic.I|exact P]).
  destruct (ndiv F64 one (nmul F64 y y)) as [[]|[]| |[] m e]; try contradiction; auto.
Qed.
Lemma inverse_square_good : forall x, double x -> double (inverse_square x) /\ not_negative (inverse_square x).
Proof.
  intros x D. destruct (inverse_square_ok x D) as [[H1 H2]|H]; [split; [exact H1|]|rewrite H; split; reflexivity].
  unfold not_negative. destruct (inverse_square x) as [[]|[]| |[] m e]; try reflexivity; discriminate.
Qed.

Lemma integral_case : exists r, MAQ F64 inverse_square 4200 (default_settings F64) = Done r /\
  mr_successful r = true /\ nltb F64 zero (mr_integral r) = true.
Proof.
  assert (H : match MAQ F64 inverse_square 4200 (default_settings F64) with
              | Done r => mr_successful r && nltb F64 zero (mr_integral r) | _ => false end = true) by (vm_compute; reflexivity).
  destruct (MAQ F64 inverse_square 4200 (default_settings F64)) as [r| |]; try discriminate.
  apply andb_prop in H. exists r. split; [reflexivity|exact H].
Qed.

Definition reverse_settings : settings F64 := mkSettings F64 2048 2048 (tolerance_default F64) REVERSE_BINARY_SUBDIVISION.
Lemma range_case : exists r a b, MAQ F64 inverse_square 4200 reverse_settings = Done r /\ mr_range r = Some (a, b).
Proof.
  assert (H : match MAQ F64 inverse_square 4200 reverse_settings with
              | Done r => match mr_range r with Some _ => true | None => false end | _ => false end = true) by (vm_compute; reflexivity).
  destruct (MAQ F64 inverse_square 4200 reverse_settings) as [r| |]; try discriminate.
  destruct (mr_range r) as [[a b]|] eqn:E; [|discriminate]. exists r, a, b. auto.
Qed.

(** 2^1020 at 1, nothing elsewhere: four times its image there overflows. *)
Definition tall (x : F64) : F64 :=
  if neqb F64 x one then S754_finite false 4503599627370496 968 else zero.
Definition loose_settings : settings F64 := settings_run F64 [OpSetTolerance F64 (nofZ F64 100)].

Lemma refute_not_negative : exists (f : F64 -> F64) (s : settings F64) fuel r,
  limits_ok s /\ double (set_tolerance s) /\ nltb F64 zero (set_tolerance s) = true /\
  (forall x, double x -> double (f x) /\ nleb F64 zero (f x) = true) /\
  MAQ F64 f fuel s = Done r /\ mr_successful r = true /\ nltb F64 (mr_integral r) zero = true.
Proof.
  exists tall, loose_settings, 4200%nat.
  assert (H : match MAQ F64 tall 4200 loose_settings with
              | Done r => mr_successful r && nltb F64 (mr_integral r) zero | _ => false end = true) by (vm_compute; reflexivity).
  destruct (MAQ F64 tall 4200 loose_settings) as [r| |]; try discriminate.
  apply andb_prop in H. exists r.
  split; [split; split; cbn; (reflexivity || discriminate)|].
  split; [vm_compute; reflexivity|]. split; [vm_compute; reflexivity|].
  split; [|split; [reflexivity|exact H]].
  intros x _. unfold tall. destruct (neqb F64 x one); split; reflexivity.
Qed.
