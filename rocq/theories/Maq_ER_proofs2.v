(** * Searches over the extended reals: validity of the range, completeness *)
From Coq Require Import ZArith Reals List Bool Lra Lia Permutation.
From Verif Require Import Num ER ER_proofs Maq Maq_spec Maq_search_proofs Maq_search_proofs2
  Maq_loop_proofs Maq_proofs Maq_ER_spec Maq_ER_proofs.
Import ListNotations.
Local Open Scope R_scope.

Section P.
  Variable f : er -> er.

  Lemma IZR_pow2_pos : forall k : nat, 0 < IZR (2 ^ Z.of_nat k).
  Proof. intros k. apply IZR_lt. apply Z.pow_pos_nonneg; lia. Qed.

  Lemma bin_c_ER : forall j n, IZR n <> 0 -> bin_c ER j n = Fin (IZR j / IZR n).
  Proof. intros j n Hn. unfold bin_c. cbn [nfdiv ER]. apply er_div_fin. exact Hn. Qed.
  Lemma bin_a_ER : forall j n, IZR n <> 0 -> bin_a ER j n = Fin ((IZR j - 1) / IZR n).
  Proof. intros j n Hn. unfold bin_a. cbn [ndiv nsub nfloat nofZ ER]. rewrite er_sub_fin. apply er_div_fin. exact Hn. Qed.
  Lemma bin_b_ER : forall j n, IZR n <> 0 -> bin_b ER j n = Fin ((IZR j + 1) / IZR n).
  Proof. intros j n Hn. unfold bin_b. cbn [ndiv nadd nfloat nofZ ER er_add]. apply er_div_fin. exact Hn. Qed.
  Lemma rev_c_ER : forall j n, IZR n <> 0 -> rev_c ER j n = Fin (1 - IZR j / IZR n).
  Proof. intros j n Hn. unfold rev_c. cbn [nfdiv nsub nofZ ER]. rewrite er_div_fin by exact Hn. reflexivity. Qed.
  Lemma rev_a_ER : forall j n, IZR n <> 0 -> rev_a ER j n = Fin (1 - (IZR j + 1) / IZR n).
  Proof.
    intros j n Hn. unfold rev_a. cbn [ndiv nsub nadd nfloat nofZ ER er_add].
    rewrite er_div_fin by exact Hn. reflexivity.
  Qed.
  Lemma rev_b_ER : forall j n, IZR n <> 0 -> rev_b ER j n = Fin (1 - (IZR j - 1) / IZR n).
  Proof.
    intros j n Hn. unfold rev_b. cbn [ndiv nsub nadd nfloat nofZ ER er_add].
    rewrite er_sub_fin. rewrite er_div_fin by exact Hn. reflexivity.
  Qed.

  Lemma c0_mid_ER : c0_mid ER = Fin (1 / 2).
  Proof.
    unfold c0_mid. cbn [ndiv nadd nofZ ER er_add]. rewrite er_div_fin by lra. f_equal. lra.
  Qed.
  Lemma c0_rev_ER : c0_rev ER = Fin (1 / 2).
  Proof. unfold c0_rev. rewrite c0_mid_ER. cbn [nsub nofZ ER]. rewrite er_sub_fin. f_equal. lra. Qed.

  Lemma gt_eps_above : forall t, t <> 0 ->
    (gt_eps ER (f (x_from_t ER (Fin t))) = true <-> above f t).
  Proof.
    intros t Ht. rewrite x_from_t_fin by exact Ht. unfold gt_eps, above. cbn [nltb neps ER].
    replace (2 ^ 52) with 4503599627370496 by (cbn; lra).
    destruct (f (Fin (1 / t - 1))); cbn [er_ltb]; split; intros H; try discriminate; try tauto.
    - apply Rltb_true in H. exact H.
    - apply Rltb_true. exact H.
  Qed.

  Lemma le_eps_above : forall t, t <> 0 ->
    le_eps ER (f (x_from_t ER (Fin t))) = false -> above_or_nan f t.
  Proof.
    intros t Ht. rewrite x_from_t_fin by exact Ht. unfold le_eps, above_or_nan, above.
    cbn [nleb neps ER]. replace (2 ^ 52) with 4503599627370496 by (cbn; lra).
    destruct (f (Fin (1 / t - 1))); cbn [er_leb]; intros H; try discriminate; auto.
    apply Rleb_false in H. left. exact H.
  Qed.

  Lemma around_ER : forall c, 0 < c < 1 ->
    exists a b, around ER (Fin c) = (Fin a, Fin b) /\ 0 <= a < c /\ c < b <= 1 /\ (a + b) / 2 = c.
  Proof.
    intros c Hc. unfold around, half. cbn [nltb ndiv nmul nsub nofZ ER].
    rewrite er_div_fin by lra. cbn [er_ltb]. destruct (Rltb c (1 / 2)) eqn:E.
    - apply Rltb_true in E. exists 0, (2 * c). split; [reflexivity|]. lra.
    - apply Rltb_false in E. exists (2 * c - 1), 1. split; [reflexivity|]. lra.
  Qed.

  Lemma scat_point_ER : forall c, scat_point ER c -> exists t, c = Fin t /\ 0 < t < 1.
  Proof.
    intros c [k [i [Hk [Hi ->]]]]. pose proof (IZR_pow2_pos k) as Hp.
    rewrite rev_c_ER by lra. eexists. split; [reflexivity|].
    assert (0 < IZR i / IZR (2 ^ Z.of_nat k) < 1).
    { destruct Hi as [Hi1 Hi2]. apply IZR_le in Hi1. apply IZR_lt in Hi2. split.
      - apply Rdiv_lt_0_compat; lra.
      - apply (Rmult_lt_reg_r (IZR (2 ^ Z.of_nat k))); [exact Hp|].
        unfold Rdiv. rewrite Rmult_assoc, Rinv_l by lra. lra. }
    lra.
  Qed.

  Lemma frac_bounds : forall j n, 0 < IZR n -> (0 < j < n)%Z ->
    0 <= (IZR j - 1) / IZR n /\ (IZR j + 1) / IZR n <= 1 /\
    (IZR j - 1) / IZR n < (IZR j + 1) / IZR n /\
    ((IZR j - 1) / IZR n + (IZR j + 1) / IZR n) / 2 = IZR j / IZR n.
  Proof.
    intros j n Hn [Hj1 Hj2].
    assert (H1 : 1 <= IZR j) by (apply IZR_le; lia).
    assert (H2 : IZR j + 1 <= IZR n) by (rewrite <- plus_IZR; apply IZR_le; lia).
    assert (Hinv : 0 < / IZR n) by (apply Rinv_0_lt_compat; exact Hn).
    unfold Rdiv. repeat split.
    - apply Rmult_le_pos; lra.
    - apply (Rmult_le_reg_r (IZR n)); [exact Hn|]. rewrite Rmult_assoc, Rinv_l by lra. lra.
    - apply Rmult_lt_compat_r; lra.
    - field. lra.
  Qed.

  Lemma good_range_whole : forall P, good_range P (nofZ ER 0, nofZ ER 1).
  Proof. intros P. exists 0, 1. split; [reflexivity|]. split; [lra|]. split; [lra|]. left. split; reflexivity. Qed.

  Lemma good_range_bin : forall j k, (0 < j < 2 ^ Z.of_nat k)%Z ->
    hit ER f (bin_c ER j (2 ^ Z.of_nat k)) ->
    good_range (above f) (bin_a ER j (2 ^ Z.of_nat k), bin_b ER j (2 ^ Z.of_nat k)).
  Proof.
    intros j k Hj Hh. pose proof (IZR_pow2_pos k) as Hp.
    destruct (frac_bounds j (2 ^ Z.of_nat k) Hp Hj) as [B1 [B2 [B3 B4]]].
    rewrite bin_a_ER, bin_b_ER by lra. rewrite bin_c_ER in Hh by lra.
    eexists; eexists. split; [reflexivity|]. split; [lra|]. split; [exact B2|].
    right. rewrite B4. apply gt_eps_above; [lra|exact Hh].
  Qed.

  Lemma good_range_rev : forall j k, (0 < j < 2 ^ Z.of_nat k)%Z ->
    hit ER f (rev_c ER j (2 ^ Z.of_nat k)) ->
    good_range (above f) (rev_a ER j (2 ^ Z.of_nat k), rev_b ER j (2 ^ Z.of_nat k)).
  Proof.
    intros j k Hj Hh. pose proof (IZR_pow2_pos k) as Hp.
    destruct (frac_bounds j (2 ^ Z.of_nat k) Hp Hj) as [B1 [B2 [B3 B4]]].
    rewrite rev_a_ER, rev_b_ER by lra. rewrite rev_c_ER in Hh by lra.
    eexists; eexists. split; [reflexivity|]. split; [lra|]. split; [lra|].
    right.
    replace ((1 - (IZR j + 1) / IZR (2 ^ Z.of_nat k) + (1 - (IZR j - 1) / IZR (2 ^ Z.of_nat k))) / 2)
      with (1 - IZR j / IZR (2 ^ Z.of_nat k)) by lra.
    apply gt_eps_above; [lra|exact Hh].
  Qed.

  (** ** The directed search's refinement keeps 0 < c < 1 *)
  Definition pos_value (v : er) : Prop :=
    match v with NaN | MInf => False | PInf => True | Fin x => 0 < x end.

  Definition dir_ok (s : sstate ER) : Prop :=
    exists a c b, ss_a s = Fin a /\ ss_c s = Fin c /\ ss_b s = Fin b /\ 0 <= a < c /\ c < b <= 1.

  Lemma dir_refine_ER : forall fuel limit s s',
    dir_ok s -> valued ER f s ->
    dir_refine ER f fuel limit s = Done s' ->
    (exists c, ss_c s' = Fin c /\ 0 < c < 1) /\ valued ER f s' /\
    ((forall x, proper_nonneg (f x)) -> pos_value (ss_fc s) -> pos_value (ss_fc s')).
  Proof.
    induction fuel as [|fu IH]; intros limit s s' Hok Hv H; [discriminate|].
    destruct Hok as (a & c & b & Ea & Ec & Eb & H1 & H2).
    cbn [dir_refine] in H.
    destruct (_ && _ && _) eqn:Econd.
    2:{ injection H as <-. split; [exists c; split; [exact Ec|lra]|]. split; [exact Hv|]. auto. }
    assert (Ed : ndiv ER (nadd ER (ss_a s) (ss_c s)) (nofZ ER 2) = Fin ((a + c) / 2)).
    { rewrite Ea, Ec. cbn [ndiv nadd nofZ ER er_add]. apply er_div_fin. lra. }
    rewrite Ed in H.
    set (sd := probe ER f s (Fin ((a + c) / 2))) in *.
    destruct (gt_eps ER (ss_fc sd)) eqn:Egd.
    { injection H as <-. split; [exists ((a + c) / 2); split; [reflexivity|lra]|].
      split; [reflexivity|]. intros _ _. clear - Egd.
      unfold gt_eps in Egd. cbn [nltb neps ER] in Egd. unfold pos_value.
      destruct (ss_fc sd); cbn [er_ltb] in Egd; try discriminate; auto.
      apply Rltb_true in Egd. assert (0 < / 4503599627370496) by (apply Rinv_0_lt_compat; lra). lra. }
    set (s1 := if nleb ER (ss_fc sd) (ss_fc s) then _ else _) in *.
    assert (Hs1 : dir_ok s1 /\ valued ER f s1 /\
      ((forall x, proper_nonneg (f x)) -> pos_value (ss_fc s) -> pos_value (ss_fc s1))).
    { subst s1. destruct (nleb ER (ss_fc sd) (ss_fc s)) eqn:El.
      - split; [exists ((a + c) / 2), c, b; repeat split; try assumption; lra|].
        split; [exact Hv|]. auto.
      - split; [exists a, ((a + c) / 2), c; repeat split; try assumption; lra|].
        split; [reflexivity|]. intros Hnn Hp. cbn [ss_fc].
        assert (Hd : proper_nonneg (ss_fc sd)) by apply Hnn.
        cbn [nleb ER] in El. unfold pos_value, proper_nonneg in *.
        destruct (ss_fc sd) as [| | |x]; auto.
        destruct (ss_fc s) as [| | |y]; cbn [er_leb] in El; try discriminate; try contradiction.
        apply Rleb_false in El. lra. }
    destruct Hs1 as [(a1 & c1 & b1 & Ea1 & Ec1 & Eb1 & H11 & H12) [Hv1 Hp1]].
    assert (Ee : ndiv ER (nadd ER (ss_c s1) (ss_b s1)) (nofZ ER 2) = Fin ((c1 + b1) / 2)).
    { rewrite Ec1, Eb1. cbn [ndiv nadd nofZ ER er_add]. apply er_div_fin. lra. }
    rewrite Ee in H.
    set (se := probe ER f s1 (Fin ((c1 + b1) / 2))) in *.
    destruct (gt_eps ER (ss_fc se)) eqn:Ege.
    { injection H as <-. split; [exists ((c1 + b1) / 2); split; [reflexivity|lra]|].
      split; [reflexivity|]. intros _ _. clear - Ege.
      unfold gt_eps in Ege. cbn [nltb neps ER] in Ege. unfold pos_value.
      destruct (ss_fc se); cbn [er_ltb] in Ege; try discriminate; auto.
      apply Rltb_true in Ege. assert (0 < / 4503599627370496) by (apply Rinv_0_lt_compat; lra). lra. }
    set (s2 := if nltb ER (ss_fc se) (ss_fc s1) then _ else _) in *.
    assert (Hs2 : dir_ok s2 /\ valued ER f s2 /\
      ((forall x, proper_nonneg (f x)) -> pos_value (ss_fc s1) -> pos_value (ss_fc s2))).
    { subst s2. destruct (nltb ER (ss_fc se) (ss_fc s1)) eqn:El.
      - split; [exists a1, c1, ((c1 + b1) / 2); repeat split; try assumption; lra|].
        split; [exact Hv1|]. auto.
      - split; [exists c1, ((c1 + b1) / 2), b1; repeat split; try assumption; lra|].
        split; [reflexivity|]. intros Hnn Hp. cbn [ss_fc].
        assert (Hd : proper_nonneg (ss_fc se)) by apply Hnn.
        cbn [nltb ER] in El. unfold pos_value, proper_nonneg in *.
        destruct (ss_fc se) as [| | |x]; auto.
        destruct (ss_fc s1) as [| | |y]; cbn [er_ltb] in El; try discriminate; try contradiction.
        apply Rltb_false in El. lra. }
    destruct Hs2 as [Hok2 [Hv2 Hp2]].
    destruct (IH limit s2 s' Hok2 Hv2 H) as [I1 [I2 I3]].
    split; [exact I1|]. split; [exact I2|].
    intros Hnn Hp. apply I3; [exact Hnn|]. apply Hp2; [exact Hnn|]. apply Hp1; assumption.
  Qed.

  (** ** Range returned by each method *)
  Lemma sub_range_ER : forall (cpt apt bpt : Z -> Z -> er) c0 limit r,
    (forall j k, (0 < j < 2 ^ Z.of_nat k)%Z -> hit ER f (cpt j (2 ^ Z.of_nat k)%Z) ->
       good_range (above f) (apt j (2 ^ Z.of_nat k)%Z, bpt j (2 ^ Z.of_nat k)%Z)) ->
    sub_search_result ER f cpt apt bpt c0 limit r ->
    forall ab, sr_range r = Some ab -> good_range (above f) ab.
  Proof.
    intros cpt apt bpt c0 limit r Hg R ab Hr.
    destruct R; cbn [sr_range] in Hr; try discriminate; injection Hr as <-.
    - apply good_range_whole.
    - apply Hg; assumption.
  Qed.

  Lemma low_range_ER : forall limit r, low_search_result ER f limit r ->
    forall ab, sr_range r = Some ab -> good_range (above f) ab.
  Proof.
    intros limit r R ab Hr.
    destruct R; cbn [sr_range] in Hr; try discriminate; injection Hr as <-.
    - apply good_range_whole.
    - apply good_range_rev; assumption.
  Qed.

  Lemma scat_range_ER : forall limit r, scat_search_result ER f limit r ->
    forall ab, sr_range r = Some ab -> good_range (above_or_nan f) ab.
  Proof.
    intros limit r R ab Hr.
    destruct R as [tr Ht|c ev tr Hev Hb Hp Hle|]; cbn [sr_range] in Hr; try discriminate;
      injection Hr as <-.
    - apply good_range_whole.
    - destruct (scat_point_ER c Hp) as [t [-> Ht]].
      destruct (around_ER t Ht) as (a & b & Ea & Ha & Hb' & Hm).
      rewrite Ea. exists a, b. split; [reflexivity|]. split; [lra|]. split; [lra|].
      right. rewrite Hm. apply le_eps_above; [lra|exact Hle].
  Qed.

  Lemma good_range_weaken : forall (P Q : R -> Prop) ab,
    (forall t, P t -> Q t) -> good_range P ab -> good_range Q ab.
  Proof.
    intros P Q ab H (a & b & E & H1 & H2 & H3). exists a, b. repeat split; try tauto; try lra.
    destruct H3 as [H3|H3]; [left; exact H3|right; apply H; exact H3].
  Qed.

  Lemma dir_range_ER : forall fuel limit r,
    (1 <= limit <= max_limit)%Z ->
    directed_search ER f fuel limit = Done r ->
    forall ab, sr_range r = Some ab ->
    good_range (fun t => (forall x, proper_nonneg (f x)) -> positive_at f t) ab.
  Proof.
    intros fuel limit r Hl H ab Hr.
    assert (H' : directed_search ER f (fuel + Z.to_nat limit + 3) limit = Done r).
    { change (search ER f DIRECTED (fuel + Z.to_nat limit + 3) limit = Done r).
      apply (search_fuel ER f DIRECTED limit fuel); [lia|exact H]. }
    clear H. rename H' into H.
    set (fu := (fuel + Z.to_nat limit + 3)%nat) in *.
    unfold directed_search in H. cbn [search_start] in H.
    set (s := mkSS ER _ _ _ _ _ _) in *.
    assert (Hsc : counted ER s) by reflexivity.
    assert (Hsv : valued ER f s) by reflexivity.
    destruct (le_eps ER _ && le_eps ER (ss_fc s)) eqn:Eb.
    - assert (Hl' : (limit <= max_scattered)%Z) by (unfold max_scattered, max_limit in *; lia).
      destruct (dir_outer_spec ER f fu limit s Hl') as [s1 [E [R X]]];
        try reflexivity; try (cbn; lia).
      rewrite E in H. cbn [obind] in H.
      destruct R as [R1 R2 R3 R4 R5].
      assert (Hc1 : exists c, ss_c s1 = Fin c /\ 0 < c < 1).
      { destruct R5 as [[Rc _]|[_ Rp]].
        - exists (1 / 2). rewrite Rc. split; [exact c0_mid_ER|lra].
        - apply scat_point_ER. exact Rp. }
      assert (Hv1 : valued ER f s1).
      { destruct R5 as [[Rc Rf]|[Rv _]]; [|exact Rv].
        unfold valued. rewrite Rc, Rf. exact Hsv. }
      destruct (is_zero ER (ss_fc s1)) eqn:Ez.
      { injection H as <-. discriminate. }
      destruct Hc1 as [c1 [Ec1 Hc1]].
      destruct (around_ER c1 Hc1) as (a & b & Ea & Ha & Hb & Hm).
      destruct (dir_refine ER f fu limit (set_around ER s1)) as [s2| |] eqn:E2; try discriminate.
      cbn [obind] in H. injection H as <-.
      unfold set_around in E2. rewrite Ec1, Ea in E2.
      destruct (dir_refine_ER fu limit (set_range ER s1 (Fin a) (Fin b)) s2) as [[c2 [Ec2 Hc2]] [Hv2 Hp2]].
      { exists a, c1, b. repeat split; try assumption; lra. }
      { exact Hv1. }
      { exact E2. }
      unfold search_whole, set_around in Hr. rewrite Ec2 in Hr.
      destruct (around_ER c2 Hc2) as (a2 & b2 & Ea2 & Ha2 & Hb2 & Hm2).
      rewrite Ea2 in Hr. cbn [set_range ss_a ss_b sr_range] in Hr. injection Hr as <-.
      exists a2, b2. split; [reflexivity|]. split; [lra|]. split; [lra|]. right.
      intros Hnn. rewrite Hm2. unfold positive_at.
      assert (Hpos : pos_value (ss_fc s2)).
      { apply Hp2; [exact Hnn|]. cbn [set_range ss_fc].
        assert (Hn1 : proper_nonneg (ss_fc s1)) by (rewrite Hv1; apply Hnn).
        unfold is_zero in Ez. cbn [neqb nofZ ER] in Ez. unfold proper_nonneg, pos_value in *.
        destruct (ss_fc s1) as [| | |y]; auto. cbn [er_eqb] in Ez. apply Reqb_false in Ez.
        lra. }
      unfold valued in Hv2. rewrite Ec2, x_from_t_fin in Hv2 by lra.
      rewrite <- Hv2. exact Hpos.
    - injection H as <-. unfold search_whole, set_around in Hr.
      change (ss_c s) with (c0_mid ER) in Hr. rewrite c0_mid_ER in Hr.
      assert (Ea : around ER (Fin (1 / 2)) = (Fin 0, Fin 1)).
      { unfold around, half. cbn [nltb ndiv nmul nsub nofZ ER]. rewrite er_div_fin by lra.
        cbn [er_ltb]. replace (Rltb (1 / 2) (1 / 2)) with false
          by (symmetry; apply Rltb_false; lra).
        cbn [er_mul]. rewrite er_sub_fin. f_equal. f_equal. lra. }
      rewrite Ea in Hr. cbn [set_range ss_a ss_b sr_range] in Hr. injection Hr as <-.
      exists 0, 1. split; [reflexivity|]. split; [lra|]. split; [lra|]. left. split; reflexivity.
  Qed.

  Lemma search_range_ER : forall m fuel limit r ab,
    (1 <= limit <= 1073741824)%Z ->
    search ER f m fuel limit = Done r -> sr_range r = Some ab ->
    good_range (range_promise f m) ab.
  Proof.
    intros m fuel limit r ab Hl H Hr.
    pose proof (search_fuel ER f m limit fuel (fuel + Z.to_nat limit + 3) r ltac:(lia) H) as H'.
    destruct m; cbn [search] in H, H'; unfold range_promise.
    - destruct (binary_spec ER f ER_order_ok (fuel + Z.to_nat limit + 3) limit) as [r' [E R]];
        try (unfold max_limit, max_scattered, max_refined; lia); try (left; lia).
      rewrite E in H'. injection H' as <-.
      apply (sub_range_ER _ _ _ _ _ _ good_range_bin R ab Hr).
    - destruct (reverse_spec ER f ER_order_ok (fuel + Z.to_nat limit + 3) limit) as [r' [E R]];
        try (unfold max_limit, max_scattered, max_refined; lia); try (left; lia).
      rewrite E in H'. injection H' as <-.
      apply (sub_range_ER _ _ _ _ _ _ good_range_rev R ab Hr).
    - destruct (low_spec ER f ER_order_ok (fuel + Z.to_nat limit + 3) limit) as [r' [E R]];
        try (unfold max_limit, max_scattered, max_refined; lia); try (left; lia).
      rewrite E in H'. injection H' as <-.
      apply (low_range_ER _ _ R ab Hr).
    - destruct (scattered_spec ER f (fuel + Z.to_nat limit + 3) limit ER_order_ok) as [r' [E R]];
        try (unfold max_limit, max_scattered, max_refined; lia); try (left; lia).
      rewrite E in H'. injection H' as <-.
      apply (scat_range_ER _ _ R ab Hr).
    - apply (dir_range_ER _ _ _ Hl H ab Hr).
  Qed.

  (** ** Completeness *)
  Lemma dyadic_cases : forall (p : nat) (m : Z), (1 <= m <= 2 ^ Z.of_nat p)%Z ->
    m = (2 ^ Z.of_nat p)%Z \/
    exists (q : nat) (j : Z), (1 <= q <= p)%nat /\ (0 < j < 2 ^ Z.of_nat q)%Z /\ (j mod 2 = 1)%Z /\
      IZR m / IZR (2 ^ Z.of_nat p) = IZR j / IZR (2 ^ Z.of_nat q).
  Proof.
    induction p as [|p IH]; intros m Hm.
    - left. change (2 ^ Z.of_nat 0)%Z with 1%Z in *. lia.
    - destruct (Z.eq_dec m (2 ^ Z.of_nat (S p))) as [E|E]; [left; exact E|right].
      destruct (Z.eq_dec (m mod 2) 1) as [E1|E1].
      + exists (S p), m. repeat split; try assumption; try lia.
      + assert (Em : m = (2 * (m / 2))%Z) by (pose proof (Z.div_mod m 2 ltac:(lia)); pose proof (Z.mod_pos_bound m 2 ltac:(lia)); lia).
        assert (E2 : (2 ^ Z.of_nat (S p) = 2 * 2 ^ Z.of_nat p)%Z)
          by (rewrite Nat2Z.inj_succ, Z.pow_succ_r by lia; reflexivity).
        destruct (IH (m / 2)%Z) as [E3|(q & j & Hq & Hj & Hjm & Ev)]; [lia|lia|].
        exists q, j. repeat split; try assumption; try lia.
        rewrite <- Ev, E2, Em at 1. rewrite !mult_IZR. field.
        apply Rgt_not_eq. apply IZR_pow2_pos.
  Qed.

  Lemma grid_point : forall (u v : R) (p : nat), 0 <= u -> v <= 1 ->
    1 <= (v - u) * IZR (2 ^ Z.of_nat p) ->
    exists m : Z, (1 <= m <= 2 ^ Z.of_nat p)%Z /\ u < IZR m / IZR (2 ^ Z.of_nat p) <= v.
  Proof.
    intros u v p Hu Hv Hw. pose proof (IZR_pow2_pos p) as Hp.
    set (P := IZR (2 ^ Z.of_nat p)) in *.
    exists (Int_part (v * P)).
    destruct (base_Int_part (v * P)) as [B1 B2].
    assert (Hm1 : 0 < IZR (Int_part (v * P))) by nra.
    assert (Hm2 : IZR (Int_part (v * P)) <= P) by nra.
    split.
    - split; [apply lt_IZR in Hm1; clear - Hm1; lia|apply le_IZR; exact Hm2].
    - split.
      + apply (Rmult_lt_reg_r P); [exact Hp|]. unfold Rdiv. rewrite Rmult_assoc, Rinv_l by lra. nra.
      + apply (Rmult_le_reg_r P); [exact Hp|]. unfold Rdiv. rewrite Rmult_assoc, Rinv_l by lra. nra.
  Qed.

  Lemma miss_not_above : forall t, t <> 0 -> miss ER f (Fin t) -> above f t -> False.
  Proof.
    intros t Ht Hm Ha. apply gt_eps_above in Ha; [|exact Ht]. unfold miss in Hm. congruence.
  Qed.

  Lemma sub_complete : forall (cpt apt bpt : Z -> Z -> er) limit r u v,
    (1 <= limit)%Z ->
    (forall j k, (0 < j < 2 ^ Z.of_nat k)%Z -> (j mod 2 = 1)%Z -> (1 <= k)%nat ->
       exists j', (0 < j' < 2 ^ Z.of_nat k)%Z /\ (j' mod 2 = 1)%Z /\
       cpt j' (2 ^ Z.of_nat k)%Z = Fin (IZR j / IZR (2 ^ Z.of_nat k))) ->
    sub_search_result ER f cpt apt bpt (Fin (1 / 2)) limit r ->
    0 <= u -> v <= 1 -> / IZR limit <= v - u -> feature f u v ->
    sr_range r <> None.
  Proof.
    intros cpt apt bpt limit r u v Hlim Hcpt R Hu Hv Hw Hf.
    destruct R as [ev tr|k j ev tr|k ev tr Hev Hb Hk Hkl M1 M0 Hno]; cbn [sr_range]; try discriminate.
    exfalso.
    assert (Ep : (2 ^ Z.of_nat k = 2 * 2 ^ Z.of_nat (k - 1))%Z).
    { replace (Z.of_nat k) with (Z.succ (Z.of_nat (k - 1))) by lia. apply Z.pow_succ_r. lia. }
    assert (Hl : IZR limit <= IZR (2 ^ Z.of_nat (k - 1))).
    { apply IZR_le. rewrite Ep, Z.mul_comm, Z.div_mul in Hkl by lia. exact Hkl. }
    assert (Hl0 : 0 < IZR limit) by (apply IZR_lt; lia).
    destruct (grid_point u v (k - 1) Hu Hv) as [m [Hm [Hmu Hmv]]].
    { assert (1 = / IZR limit * IZR limit) by (field; lra).
      assert (0 < / IZR limit) by (apply Rinv_0_lt_compat; exact Hl0).
      rewrite H at 1. nra. }
    destruct (dyadic_cases (k - 1) m Hm) as [->|(q & j & Hq & Hj & Hjm & Ev)].
    - assert (E1 : IZR (2 ^ Z.of_nat (k - 1)) / IZR (2 ^ Z.of_nat (k - 1)) = 1).
      { field. apply Rgt_not_eq, IZR_pow2_pos. }
      apply (miss_not_above 1); [lra|exact M1|]. apply Hf; lra.
    - rewrite Ev in Hmu, Hmv. pose proof (IZR_pow2_pos q) as Hpq.
      assert (Ht : 0 < IZR j / IZR (2 ^ Z.of_nat q)).
      { apply Rdiv_lt_0_compat; [apply IZR_lt; lia|exact Hpq]. }
      destruct (Nat.eq_dec q 1) as [->|Hq1].
      + change (2 ^ Z.of_nat 1)%Z with 2%Z in *. assert (j = 1)%Z by lia. subst j.
        apply (miss_not_above (1 / 2)); [lra|exact M0|]. apply Hf; lra.
      + destruct (Hcpt j q Hj Hjm ltac:(lia)) as [j' [Hj' [Hjm' Ec]]].
        pose proof (Hno q j' ltac:(lia) Hj' Hjm') as Hmiss. rewrite Ec in Hmiss.
        apply (miss_not_above _ (Rgt_not_eq _ _ Ht) Hmiss). apply Hf; lra.
  Qed.

  Lemma pow2_even : forall k : nat, (1 <= k)%nat -> (2 ^ Z.of_nat k mod 2 = 0)%Z.
  Proof.
    intros k Hk. replace (Z.of_nat k) with (Z.succ (Z.of_nat (k - 1))) by lia.
    rewrite Z.pow_succ_r by lia. rewrite Z.mul_comm. apply Z.mod_mul. lia.
  Qed.

  Lemma odd_complement : forall j n : Z, (n mod 2 = 0)%Z -> (j mod 2 = 1)%Z -> ((n - j) mod 2 = 1)%Z.
  Proof. intros j n Hn Hj. rewrite Zminus_mod, Hn, Hj. reflexivity. Qed.

  Lemma rev_c_complement : forall j k, (0 < j < 2 ^ Z.of_nat k)%Z ->
    rev_c ER (2 ^ Z.of_nat k - j) (2 ^ Z.of_nat k) = Fin (IZR j / IZR (2 ^ Z.of_nat k)).
  Proof.
    intros j k Hj. pose proof (IZR_pow2_pos k) as Hp.
    rewrite rev_c_ER by lra. rewrite minus_IZR. f_equal. field. lra.
  Qed.

  Lemma binary_complete : forall fuel limit r u v,
    (1 <= limit <= 1073741824)%Z ->
    binary_subdivision ER f fuel limit = Done r ->
    0 <= u -> v <= 1 -> / IZR limit <= v - u -> feature f u v ->
    sr_range r <> None.
  Proof.
    intros fuel limit r u v Hl H Hu Hv Hw Hf.
    pose proof (search_fuel ER f BINARY_SUBDIVISION limit fuel (fuel + Z.to_nat limit + 3) r ltac:(lia) H) as H'.
    cbn [search] in H'.
    destruct (binary_spec ER f ER_order_ok (fuel + Z.to_nat limit + 3) limit) as [r' [E R]];
      try (unfold max_limit, max_scattered, max_refined; lia); try (left; lia).
    rewrite E in H'. injection H' as <-. rewrite c0_mid_ER in R.
    apply (sub_complete _ _ _ _ _ u v) in R; try assumption; [lia|].
    intros j k Hj Hjm Hk. exists j. repeat split; try assumption; try lia.
    apply bin_c_ER. apply Rgt_not_eq, IZR_pow2_pos.
  Qed.

  Lemma reverse_complete : forall fuel limit r u v,
    (1 <= limit <= 1073741824)%Z ->
    reverse_binary_subdivision ER f fuel limit = Done r ->
    0 <= u -> v <= 1 -> / IZR limit <= v - u -> feature f u v ->
    sr_range r <> None.
  Proof.
    intros fuel limit r u v Hl H Hu Hv Hw Hf.
    pose proof (search_fuel ER f REVERSE_BINARY_SUBDIVISION limit fuel (fuel + Z.to_nat limit + 3) r ltac:(lia) H) as H'.
    cbn [search] in H'.
    destruct (reverse_spec ER f ER_order_ok (fuel + Z.to_nat limit + 3) limit) as [r' [E R]];
      try (unfold max_limit, max_scattered, max_refined; lia); try (left; lia).
    rewrite E in H'. injection H' as <-. rewrite c0_rev_ER in R.
    apply (sub_complete _ _ _ _ _ u v) in R; try assumption; [lia|].
    intros j k Hj Hjm Hk. exists (2 ^ Z.of_nat k - j)%Z. split; [lia|]. split.
    - apply odd_complement; [apply pow2_even; exact Hk|exact Hjm].
    - apply rev_c_complement. exact Hj.
  Qed.

  (** The low-first search finds features in the upper half of [0,1] (0 <= x <= 1). *)
  Lemma low_complete : forall fuel limit r u v,
    (1 <= limit <= 1073741824)%Z ->
    low_first_reverse_binary_subdivision ER f fuel limit = Done r ->
    1 / 2 <= u -> v <= 1 -> 4 / IZR limit <= v - u -> feature f u v ->
    sr_range r <> None.
  Proof.
    intros fuel limit r u v Hl H Hu Hv Hw Hf.
    pose proof (search_fuel ER f LOW_FIRST_REVERSE_BINARY_SUBDIVISION limit fuel (fuel + Z.to_nat limit + 3) r ltac:(lia) H) as H'.
    cbn [search] in H'.
    destruct (low_spec ER f ER_order_ok (fuel + Z.to_nat limit + 3) limit) as [r' [E R]];
      try (unfold max_limit, max_scattered, max_refined; lia); try (left; lia).
    rewrite E in H'. injection H' as <-.
    destruct R as [ev tr|k j ev tr|k k2 ev tr Hev Hb Hk Hk2 Hkl Hkl2 M1 M0 Hno Hno2];
      cbn [sr_range]; try discriminate.
    exfalso.
    assert (Ep : (2 ^ Z.of_nat k = 4 * 2 ^ Z.of_nat (k - 2))%Z).
    { replace (Z.of_nat k) with (2 + Z.of_nat (k - 2))%Z by lia. rewrite Z.pow_add_r by lia. reflexivity. }
    assert (Ep1 : (2 ^ Z.of_nat (k - 1) = 2 * 2 ^ Z.of_nat (k - 2))%Z).
    { replace (Z.of_nat (k - 1)) with (Z.succ (Z.of_nat (k - 2))) by lia. apply Z.pow_succ_r. lia. }
    assert (Hpos : (1 <= 2 ^ Z.of_nat (k - 2))%Z) by (apply (Z.pow_le_mono_r 2 0); lia).
    assert (Hlz : (limit <= 4 * 2 ^ Z.of_nat (k - 1))%Z).
    { rewrite Ep, Z.mul_comm, Z.div_mul in Hkl by lia.
      pose proof (Z.div_mod limit 2 ltac:(lia)). pose proof (Z.mod_pos_bound limit 2 ltac:(lia)). lia. }
    apply IZR_le in Hlz. rewrite mult_IZR in Hlz.
    assert (Hl0 : 0 < IZR limit) by (apply IZR_lt; lia).
    destruct (grid_point u v (k - 1) ltac:(lra) Hv) as [m [Hm [Hmu Hmv]]].
    { assert (4 = 4 / IZR limit * IZR limit) by (field; lra).
      assert (0 < / IZR limit) by (apply Rinv_0_lt_compat; exact Hl0).
      assert (0 < 4 / IZR limit) by (unfold Rdiv; lra).
      pose proof (IZR_pow2_pos (k - 1)). nra. }
    destruct (dyadic_cases (k - 1) m Hm) as [->|(q & j & Hq & Hj & Hjm & Ev)].
    - assert (E1 : IZR (2 ^ Z.of_nat (k - 1)) / IZR (2 ^ Z.of_nat (k - 1)) = 1).
      { field. apply Rgt_not_eq, IZR_pow2_pos. }
      apply (miss_not_above 1); [lra|exact M1|]. apply Hf; lra.
    - rewrite Ev in Hmu, Hmv. pose proof (IZR_pow2_pos q) as Hpq.
      assert (Ht : 0 < IZR j / IZR (2 ^ Z.of_nat q)).
      { apply Rdiv_lt_0_compat; [apply IZR_lt; lia|exact Hpq]. }
      destruct (Nat.eq_dec q 1) as [->|Hq1].
      + change (2 ^ Z.of_nat 1)%Z with 2%Z in *. assert (j = 1)%Z by lia. subst j. lra.
      + assert (Hhalf : (2 ^ Z.of_nat q / 2 < j)%Z).
        { apply lt_IZR.
          assert (Eq : (2 ^ Z.of_nat q = 2 ^ Z.of_nat (q - 1) * 2)%Z).
          { replace (Z.of_nat q) with (Z.succ (Z.of_nat (q - 1))) by lia. rewrite Z.pow_succ_r by lia. lia. }
          rewrite Eq, Z.div_mul by lia.
          rewrite Eq, mult_IZR in Hmu. pose proof (IZR_pow2_pos (q - 1)) as Hpp.
          apply (Rmult_lt_compat_r (IZR (2 ^ Z.of_nat (q - 1)) * 2)) in Hmu; [|lra].
          unfold Rdiv in Hmu at 1. rewrite Rmult_assoc, Rinv_l in Hmu by lra. nra. }
        pose proof (pow2_even q ltac:(lia)) as Hev2.
        assert (Hmiss : miss ER f (rev_c ER (2 ^ Z.of_nat q - j) (2 ^ Z.of_nat q))).
        { apply Hno; [lia| |apply odd_complement; assumption].
          pose proof (Z.div_mod (2 ^ Z.of_nat q) 2 ltac:(lia)). lia. }
        rewrite rev_c_complement in Hmiss by exact Hj.
        apply (miss_not_above _ (Rgt_not_eq _ _ Ht) Hmiss). apply Hf; lra.
  Qed.
End P.
