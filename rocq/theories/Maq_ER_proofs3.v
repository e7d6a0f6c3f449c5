(** * Integration over the extended reals: success is never NaN, cubics, scaling *)
From Coq Require Import ZArith Reals List Bool Lra Lia Permutation.
From Coquelicot Require Import Coquelicot.
From Verif Require Import Num ER ER_proofs Maq Maq_spec Maq_search_proofs Maq_search_proofs2
  Maq_loop_proofs Maq_proofs Maq_ER_spec Maq_ER_proofs Maq_ER_proofs2.
Import ListNotations.
Local Open Scope R_scope.

(** The range of every integration over the extended reals is a proper sub-interval. *)
Lemma MAQ_range_proper : forall f s fuel r ab, limits_ok s ->
  MAQ ER f fuel s = Done r -> mr_range r = Some ab ->
  exists a b, ab = (Fin a, Fin b) /\ 0 <= a < b /\ b <= 1.
Proof.
  intros f s fuel r [a b] Hs H Hr.
  destruct (MAQ_range_inv ER f ER_order_ok s fuel r a b Hs H Hr) as [sr [E [Er _]]].
  destruct (search_range_ER f (set_method s) fuel (set_search_limit s) sr (a, b)) as
    (ra & rb & E2 & H1 & H2 & _); try assumption; [apply Hs|].
  exists ra, rb. repeat split; try assumption; lra.
Qed.

Lemma MAQ_no_range : forall f s fuel r, limits_ok s ->
  MAQ ER f fuel s = Done r -> mr_range r = None -> mr_integral r = Fin 0.
Proof.
  intros f s fuel r Hs H Hr.
  destruct (MAQ_done_post ER f ER_order_ok s fuel r Hs H) as [? ? E|a b n0 it _ P].
  - exact E.
  - destruct P as [P1 P2 P3 P4 P5 P6 P7 P8 P9]. congruence.
Qed.

(** ** A finite integrand gives a finite integral *)
Lemma integral_finite : forall f s fuel r,
  limits_ok s -> (forall x, exists v, f x = Fin v) ->
  MAQ ER f fuel s = Done r -> mr_successful r = true ->
  exists v, mr_integral r = Fin v.
Proof.
  intros f s fuel r Hs Hf H Hsucc.
  destruct (mr_range r) as [ab|] eqn:Hr.
  2:{ exists 0. apply (MAQ_no_range f s fuel r Hs H Hr). }
  destruct (MAQ_range_proper f s fuel r ab Hs H Hr) as (a & b & -> & Hab & _).
  assert (Hp : forall t, a <= t <= b -> image f t = Fin (fin (image f t))).
  { intros t _. unfold image. destruct (Req_EM_T t 0) as [Et|Et].
    - destruct (Hf PInf) as [v ->]. reflexivity.
    - destruct (Hf (Fin (1 / t - 1))) as [v ->]. rewrite er_div_fin by nra. reflexivity. }
  destruct (MAQ_ER_post f s fuel r a b Hs Hab H Hr) as [n0 [it [_ P]]].
  destruct P as [_ _ _ _ P5 _ _ _ P9].
  apply P5 in Hsucc. destruct (P9 Hsucc) as [G1 [G2 [_ G4]]].
  rewrite G4, running_sum_fin; [eexists; reflexivity|].
  intros x Hx. rewrite Forall_forall in G1.
  destruct (acc_boole f a b (set_tolerance s) x (fun t => fin (image f t)))
    as (u & v & _ & Ei & Hu & Hv & E1 & E2 & Ev); try assumption; [lra|apply G1; exact Hx|].
  auto.
Qed.

(** ** A non-negative integrand, possibly infinite, gives a non-negative integral *)
Lemma inf_times_pos : forall x, 0 < x -> er_inf_times x = PInf.
Proof. intros x H. unfold er_inf_times. apply Rltb_true in H. rewrite H. reflexivity. Qed.

Lemma image_nonneg : forall f t, (forall x, proper_nonneg (f x)) -> proper_nonneg (image f t).
Proof.
  intros f t Hf. unfold image. destruct (Req_EM_T t 0) as [Et|Et]; [apply Hf|].
  pose proof (Hf (Fin (1 / t - 1))) as H. destruct (f (Fin (1 / t - 1))) as [| | |v]; try contradiction.
  - cbn [er_div]. replace (Rltb (t * t) 0) with false; [exact I|].
    symmetry. apply Rltb_false. nra.
  - rewrite er_div_fin by nra. cbn in *. apply Rdiv_le_0_compat; [exact H|nra].
Qed.

(** Simpson's rule on non-negative values: infinite if one of them is. *)
Lemma simpson_nonneg : forall a b x y z, a < b ->
  proper_nonneg x -> proper_nonneg y -> proper_nonneg z ->
  (simpson ER (Fin a) (Fin b) x y z = PInf /\ (x = PInf \/ y = PInf \/ z = PInf)) \/
  (x = Fin (fin x) /\ y = Fin (fin y) /\ z = Fin (fin z) /\
   simpson ER (Fin a) (Fin b) x y z = Fin ((b - a) / 6 * (fin x + 4 * fin y + fin z))).
Proof.
  intros a b x y z Hab Hx Hy Hz.
  destruct x as [| | |x], y as [| | |y], z as [| | |z]; cbn in Hx, Hy, Hz; try contradiction.
  8:{ right. rewrite simpson_fin. auto. }
  all: left; split; [|tauto].
  all: unfold simpson; cbn [nmul ndiv nsub nadd nofZ ER er_mul];
    rewrite er_sub_fin, er_div_fin by lra; rewrite ?(inf_times_pos 4) by lra;
    cbn [er_add er_mul]; apply inf_times_pos; lra.
Qed.

Lemma acc_nonneg : forall f lo hi tol (x : accepted ER),
  0 <= lo -> (forall x, proper_nonneg (f x)) ->
  acc_ok ER (TER f) (QER lo hi) tol x ->
  forall v, proper_nonneg v -> proper_nonneg (er_add (er_add v (ac_q2 x)) (ac_corr x)).
Proof.
  intros f lo hi tol x Hlo Hf [HQ HG] w Hw.
  destruct HQ as [a [b [Ea [Eb [H1 [H2 H3]]]]]].
  unfold good_estimate in HG.
  destruct HG as (c & d & e & ga & gb & gc & gd & ge & Mc & Md & Me & Ta & Tb & Tc & Td & Te & Hq2 & Hcorr & Herr).
  rewrite Ea, Eb in *.
  apply midpoint_fin in Mc. subst c.
  apply midpoint_fin in Md. subst d.
  apply midpoint_fin in Me. subst e.
  assert (HT : forall t g, TER f t g -> proper_nonneg g).
  { intros t g [r [_ ->]]. apply image_nonneg. exact Hf. }
  apply HT in Ta, Tb, Tc, Td, Te.
  set (m := (a + b) / 2) in *.
  assert (Hm : a < m < b) by (unfold m; lra).
  assert (Hnn : er_sub (ac_q2 x) (simpson ER (Fin a) (Fin b) ga gc gb) <> NaN).
  { cbn zeta in Herr. cbn [nleb nabs nsub nmul ER] in Herr. intros E. rewrite E in Herr.
    cbn in Herr. destruct Herr; discriminate. }
  clear Herr. cbn [nsub ndiv nofZ nadd ER] in Hcorr, Hq2.
  destruct (simpson_nonneg a b ga gc gb) as [[Q1 _]|(Fa & Fc & Fb & Q1)]; try assumption; try (clear - Hm; lra).
  - (* the one-panel estimate is infinite: then so is the other *)
    exfalso. apply Hnn. rewrite Q1.
    destruct (simpson_nonneg a m ga gd gc) as [[S1 I1]|(F1 & F2 & F3 & S1)]; try assumption; try (clear - Hm; lra);
    (destruct (simpson_nonneg m b gc ge gb) as [[S2 I2]|(F4 & F5 & F6 & S2)]; try assumption; try (clear - Hm; lra));
    rewrite S1, S2 in Hq2; cbn [er_add] in Hq2; rewrite Hq2; try reflexivity.
    exfalso. rewrite F1, F3, F6, simpson_fin in Q1. discriminate.
  - destruct (simpson_nonneg a m ga gd gc) as [[S1 I1]|(F1 & F2 & F3 & S1)]; try assumption; try (clear - Hm; lra).
    + assert (Eq : ac_q2 x = PInf).
      { rewrite Hq2, S1.
        destruct (simpson_nonneg m b gc ge gb) as [[S2 I2]|(F4 & F5 & F6 & S2)];
          try assumption; try lra; rewrite S2; reflexivity. }
      rewrite Hcorr, Eq, Q1. cbn [er_sub er_opp er_add er_div].
      replace (Rltb 15 0) with false by (symmetry; apply Rltb_false; lra).
      destruct w; cbn in Hw |- *; try contradiction; exact I.
    + destruct (simpson_nonneg m b gc ge gb) as [[S2 I2]|(F4 & F5 & F6 & S2)]; try assumption; try (clear - Hm; lra).
      * assert (Eq : ac_q2 x = PInf) by (rewrite Hq2, S1, S2; reflexivity).
        rewrite Hcorr, Eq, Q1. cbn [er_sub er_opp er_add er_div].
        replace (Rltb 15 0) with false by (symmetry; apply Rltb_false; lra).
        destruct w; cbn in Hw |- *; try contradiction; exact I.
      * rewrite Hcorr, Hq2, S1, S2, Q1. cbn [er_add]. rewrite er_sub_fin, er_div_fin by lra.
        rewrite Fa in Ta. rewrite Fb in Tb. rewrite Fc in Tc. rewrite F2 in Td. rewrite F5 in Te.
        cbn [proper_nonneg] in Ta, Tb, Tc, Td, Te.
        destruct w as [| | |w]; cbn in Hw |- *; try contradiction; try exact I.
        unfold m.
        assert (HB : forall s, 0 <= s -> 0 <= (b - a) / 90 * s) by (intros; apply Rmult_le_pos; lra).
        specialize (HB (7 * fin ga + 32 * fin gd + 12 * fin gc + 32 * fin ge + 7 * fin gb) ltac:(lra)).
        lra.
Qed.

Lemma integral_nonneg : forall f s fuel r,
  limits_ok s -> (forall x, proper_nonneg (f x)) ->
  MAQ ER f fuel s = Done r -> mr_successful r = true ->
  proper_nonneg (mr_integral r).
Proof.
  intros f s fuel r Hs Hf H Hsucc.
  destruct (mr_range r) as [ab|] eqn:Hr.
  2:{ rewrite (MAQ_no_range f s fuel r Hs H Hr). cbn. lra. }
  destruct (MAQ_range_proper f s fuel r ab Hs H Hr) as (a & b & -> & Hab & _).
  destruct (MAQ_ER_post f s fuel r a b Hs Hab H Hr) as [n0 [it [_ P]]].
  destruct P as [_ _ _ _ P5 _ _ _ P9].
  apply P5 in Hsucc. destruct (P9 Hsucc) as [G1 [_ [_ G4]]].
  rewrite G4. clear - G1 Hf Hab.
  induction (mr_accepted r) as [|x l IH]; cbn [running_sum]; [cbn; lra|].
  inversion G1 as [|x' l' Hx Hl]; subst.
  apply (acc_nonneg f a b (set_tolerance s) x); try assumption; [lra|].
  apply IH. exact Hl.
Qed.

(** ** Cubics succeed at once *)
Lemma leb_0_abs : forall x, er_leb (Fin 0) (er_abs (Fin x)) = true.
Proof. intros x. cbn. apply Rleb_true. apply Rabs_pos. Qed.

Lemma range_cubic : forall f fuel tol maxeval c0 a b tr cs,
  0 <= a < b -> (length cs <= 4)%nat ->
  (forall t, a <= t <= b -> image f t = Fin (poly cs t)) ->
  (0 <= c0)%Z -> (c0 + 4 <= maxeval)%Z -> (maxeval < 4294967296)%Z ->
  exists r, integrate_range ER f (S (S fuel)) (Fin tol) maxeval c0 (Fin a) (Fin b) tr = Done r /\
    mr_successful r = true /\ mr_evaluations r = (c0 + 4)%Z /\
    length (mr_accepted r) = 1%nat.
Proof.
  intros f fuel tol maxeval c0 a b tr cs Hab Hl Hp H0 H1 H2.
  assert (Hc : exists c0 c1 c2 c3, forall t, poly cs t = c0 + c1 * t + c2 * t ^ 2 + c3 * t ^ 3).
  { exists (nth 0 cs 0), (nth 1 cs 0), (nth 2 cs 0), (nth 3 cs 0). intros t.
    destruct cs as [|k0 [|k1 [|k2 [|k3 [|k4 cs]]]]]; cbn [poly nth]; try ring.
    cbn [length] in Hl. lia. }
  destruct Hc as (k0 & k1 & k2 & k3 & Hc).
  unfold integrate_range. rewrite eval_left_image, eval_at_image by lra.
  rewrite !Hp by lra. cbn [nisnan ER er_isnan nadd ndiv nofZ er_add].
  rewrite er_div_fin by lra. rewrite eval_at_image by lra. rewrite Hp by lra.
  cbn [er_isnan]. unfold u32. rewrite Z.mod_small by lia.
  cbn [maq_loop rg_a rg_b rg_c rg_fa rg_fb rg_fc rg_r].
  unfold u32. rewrite Z.mod_small by lia.
  replace (maxeval <? c0 + 3 + 1)%Z with false by (symmetry; apply Z.ltb_ge; lia).
  cbn [nisnan nadd ndiv nofZ ER er_add].
  rewrite !er_div_fin by lra. rewrite !eval_at_image by lra. rewrite !Hp by lra.
  cbn [er_isnan].
  set (m := (a + b) / 2).
  assert (Q : forall u v x y z, quad ER (Fin u) (Fin v) x (Fin y) (Fin z) x = quad ER (Fin u) (Fin v) x (Fin y) (Fin z) x) by reflexivity.
  assert (Qf : forall u v w x y z, quad ER (Fin u) (Fin v) (Fin w) (Fin x) (Fin y) (Fin z)
                                = Fin ((v - u) / 6 * (x + 4 * z + y))).
  { intros. unfold quad. cbn [nmul ndiv nsub nadd nofZ ER]. rewrite er_sub_fin, er_div_fin by lra.
    reflexivity. }
  rewrite !Qf. cbn [nsub nabs nleb nmul er_add ER er_mul]. rewrite !er_sub_fin.
  assert (E0 : (m - a) / 6 * (poly cs a + 4 * poly cs ((a + m) / 2) + poly cs m) +
     (b - m) / 6 * (poly cs m + 4 * poly cs ((b + m) / 2) + poly cs b) -
     (b - a) / 6 * (poly cs a + 4 * poly cs m + poly cs b) = 0).
  { rewrite !Hc. unfold m. field. }
  rewrite E0. cbn [er_abs]. rewrite Rabs_R0.
  replace (er_leb (Fin 0) _) with true by (symmetry; apply Rleb_true, Rabs_pos).
  cbn [orb obind maq_loop].
  eexists. split; [reflexivity|]. cbn [mr_successful mr_evaluations mr_accepted length].
  repeat split; lia.
Qed.

Lemma MAQ_cubic : forall f (s : settings ER) fuel r a b cs tol,
  limits_ok s -> (2 <= fuel)%nat -> set_tolerance s = Fin tol ->
  (length cs <= 4)%nat ->
  MAQ ER f fuel s = Done r -> mr_range r = Some (Fin a, Fin b) ->
  (forall t, a <= t <= b -> image f t = Fin (poly cs t)) ->
  (mr_search_evals r + 4 <= set_eval_limit s)%Z ->
  mr_successful r = true /\ mr_evaluations r = (mr_search_evals r + 4)%Z.
Proof.
  intros f s fuel r a b cs tol Hs Hfu Htol Hl H Hr Hp Hev.
  destruct (MAQ_range_inv ER f ER_order_ok s fuel r (Fin a) (Fin b) Hs H Hr)
    as [sr [E [Er [_ [Hc [Hb E2]]]]]].
  destruct (MAQ_range_proper f s fuel r _ Hs H Hr) as (a' & b' & Eab & Hab & _).
  injection Eab as <- <-.
  assert (Hse : mr_search_evals r = sr_evals sr).
  { unfold integrate_range in E2.
    destruct (nisnan ER _); [injection E2 as <-; reflexivity|].
    destruct (nisnan ER _); [injection E2 as <-; reflexivity|].
    destruct (nisnan ER _); [injection E2 as <-; reflexivity|].
    match type of E2 with obind ?o _ = _ => destruct o as [[[[[ex ig] cn] t2] ac]| |] eqn:E3 end;
      try discriminate.
    injection E2 as <-. reflexivity. }
  rewrite Hse in *. rewrite Htol in E2.
  destruct fuel as [|[|fu]]; try lia.
  destruct (range_cubic f fu tol (set_eval_limit s) (sr_evals sr) a b (sr_trace sr) cs)
    as [r' [E3 [G1 [G2 _]]]]; try assumption; try lia.
  { destruct Hs; lia. }
  rewrite E3 in E2. injection E2 as ->. split; assumption.
Qed.

(** ** Scaling the integrand *)
Section Scale.
  Variable k : R.
  Hypothesis Hk : k <> 0.
  Variable f : er -> er.

  Definition sc (x : er) : er := er_mul (Fin k) x.
  Definition kf (x : er) : er := sc (f x).

  Ltac rcase := repeat match goal with
    | |- context [Rltb ?a ?b] => let E := fresh in destruct (Rltb a b) eqn:E;
        [apply Rltb_true in E|apply Rltb_false in E]
    | |- context [Reqb ?a ?b] => let E := fresh in destruct (Reqb a b) eqn:E;
        [apply Reqb_true in E|apply Reqb_false in E]
    end.

  Lemma sc_add : forall x y, sc (er_add x y) = er_add (sc x) (sc y).
  Proof.
    intros [| | |x] [| | |y]; unfold sc; cbn; try reflexivity; unfold er_inf_times; rcase; cbn;
      try reflexivity; try (f_equal; ring); exfalso; lra.
  Qed.

  Lemma sc_sub : forall x y, sc (er_sub x y) = er_sub (sc x) (sc y).
  Proof.
    intros [| | |x] [| | |y]; unfold sc; cbn; try reflexivity; unfold er_inf_times; rcase; cbn;
      try reflexivity; try (f_equal; ring); exfalso; lra.
  Qed.

  Lemma sc_div : forall x y, sc (er_div x y) = er_div (sc x) y.
  Proof.
    intros [| | |x] [| | |y]; unfold sc; cbn; try reflexivity; unfold er_inf_times; rcase; cbn;
      try reflexivity; try (f_equal; field; assumption); try (f_equal; ring); try (exfalso; nra).
    all: unfold er_inf_times; rcase; cbn; try reflexivity; exfalso; nra.
  Qed.

  Lemma sc_mul : forall x y, sc (er_mul x y) = er_mul x (sc y).
  Proof.
    intros [| | |x] [| | |y]; unfold sc; cbn; try reflexivity; unfold er_inf_times; rcase; cbn;
      try reflexivity; try (f_equal; ring); try (exfalso; nra).
    all: unfold er_inf_times; rcase; cbn; try reflexivity; exfalso; nra.
  Qed.

  Lemma sc_nan : forall x, er_isnan (sc x) = er_isnan x.
  Proof.
    intros [| | |x]; unfold sc; cbn; try reflexivity; unfold er_inf_times; rcase; cbn;
      try reflexivity; exfalso; lra.
  Qed.

  Lemma sc_leb : forall x y, er_leb (er_abs (sc x)) (er_abs (sc y)) = er_leb (er_abs x) (er_abs y).
  Proof.
    intros x y.
    assert (Hx : forall z, er_abs (sc z) = match er_abs z with Fin r => Fin (Rabs k * r) | o => o end).
    { intros [| | |z]; unfold sc; cbn; try reflexivity; unfold er_inf_times; rcase; cbn;
        try reflexivity; try (exfalso; lra). f_equal. apply Rabs_mult. }
    rewrite !Hx. pose proof (Rabs_pos_lt k Hk) as Hp.
    destruct (er_abs x) as [| | |u], (er_abs y) as [| | |v]; cbn; try reflexivity.
    destruct (Rleb u v) eqn:E.
    - apply Rleb_true in E. apply Rleb_true. nra.
    - apply Rleb_false in E. apply Rleb_false. nra.
  Qed.

  Lemma sc_ltb : forall x y, er_ltb (er_abs (sc x)) (er_abs (sc y)) = er_ltb (er_abs x) (er_abs y).
  Proof.
    intros x y.
    assert (Hx : forall z, er_abs (sc z) = match er_abs z with Fin r => Fin (Rabs k * r) | o => o end).
    { intros [| | |z]; unfold sc; cbn; try reflexivity; unfold er_inf_times; rcase; cbn;
        try reflexivity; try (exfalso; lra). f_equal. apply Rabs_mult. }
    rewrite !Hx. pose proof (Rabs_pos_lt k Hk) as Hp.
    destruct (er_abs x) as [| | |u], (er_abs y) as [| | |v]; cbn; try reflexivity.
    destruct (Rltb u v) eqn:E.
    - apply Rltb_true in E. apply Rltb_true. nra.
    - apply Rltb_false in E. apply Rltb_false. nra.
  Qed.

  Lemma kf_eval_at : forall t, eval_at ER kf t = sc (eval_at ER f t).
  Proof. intros t. unfold eval_at, kf. cbn [ndiv ER]. rewrite sc_div. reflexivity. Qed.

  Lemma kf_eval_left : forall t, eval_left ER kf t = sc (eval_left ER f t).
  Proof. intros t. unfold eval_left, kf. cbn [ndiv ER]. rewrite sc_div. reflexivity. Qed.

  Lemma sc_mul4 : forall x, er_mul (Fin 4) (sc x) = sc (er_mul (Fin 4) x).
  Proof. intros x. rewrite sc_mul. reflexivity. Qed.

  Lemma sc_quad : forall a b c x y z,
    quad ER a b c (sc x) (sc y) (sc z) = sc (quad ER a b c x y z).
  Proof.
    intros. unfold quad. cbn [nmul ndiv nsub nadd nofZ ER].
    rewrite sc_mul4, <- !sc_add, sc_mul. reflexivity.
  Qed.

  Definition sc_region (r : region ER) : region ER :=
    mkRegion ER (rg_a r) (rg_b r) (rg_c r) (sc (rg_fa r)) (sc (rg_fb r)) (sc (rg_fc r)) (sc (rg_r r)).
  Definition sc_acc (x : accepted ER) : accepted ER :=
    mkAcc ER (sc_region (ac_region x)) (sc (ac_before x)) (sc (ac_q2 x)) (sc (ac_corr x)).

  Definition sc_out (o : outcome (exit_kind * er * Z * list er * list (accepted ER)))
    : outcome (exit_kind * er * Z * list er * list (accepted ER)) :=
    match o with
    | Done (ex, i, c, tr, acc) => Done (ex, sc i, c, tr, map sc_acc acc)
    | Ub => Ub | OutOfFuel => OutOfFuel
    end.

  Lemma sc_loop : forall fuel tol maxeval counter integral stack tr acc,
    maq_loop ER kf fuel tol maxeval counter (sc integral) (map sc_region stack) tr (map sc_acc acc)
    = sc_out (maq_loop ER f fuel tol maxeval counter integral stack tr acc).
  Proof.
    induction fuel as [|fu IH]; intros tol maxeval counter integral stack tr acc; [reflexivity|].
    destruct stack as [|todo rest]; [reflexivity|].
    cbn [map maq_loop]. destruct (maxeval <? u32 (counter + 1))%Z; [reflexivity|].
    destruct todo as [a b c fa fb fc r1].
    change (sc_region (mkRegion ER a b c fa fb fc r1)) with (mkRegion ER a b c (sc fa) (sc fb) (sc fc) (sc r1)).
    cbn [rg_a rg_b rg_c rg_fa rg_fb rg_fc rg_r].
    rewrite !kf_eval_at, !sc_quad.
    cbn [nisnan nadd nsub nmul ndiv nabs nleb nltb nofZ ER].
    rewrite !sc_nan.
    destruct (er_isnan (eval_at ER f (er_div (er_add a c) (Fin 2)))); [reflexivity|].
    destruct (er_isnan (eval_at ER f (er_div (er_add b c) (Fin 2)))); [reflexivity|].
    rewrite <- !sc_add, <- !sc_sub, <- !sc_mul, !sc_leb, !sc_ltb, <- !sc_div, <- !sc_add.
    destruct (er_leb _ _ || er_leb _ _).
    - rewrite <- IH. reflexivity.
    - destruct (er_ltb _ _); rewrite <- IH; reflexivity.
  Qed.

  Lemma range_scale : forall fuel tol maxeval c0 a b tr r,
    integrate_range ER f fuel tol maxeval c0 a b tr = Done r ->
    exists r', integrate_range ER kf fuel tol maxeval c0 a b tr = Done r' /\
      mr_integral r' = er_mul (Fin k) (mr_integral r) /\
      mr_successful r' = mr_successful r /\ mr_evaluations r' = mr_evaluations r /\
      mr_exit r' = mr_exit r /\ mr_trace r' = mr_trace r.
  Proof.
    intros fuel tol maxeval c0 a b tr r H. unfold integrate_range in *.
    rewrite !kf_eval_at, !kf_eval_left. cbn [nisnan ER] in *. rewrite !sc_nan.
    destruct (er_isnan (eval_left ER f a)); [injection H as <-; eexists; repeat split; reflexivity|].
    destruct (er_isnan (eval_at ER f b)); [injection H as <-; eexists; repeat split; reflexivity|].
    destruct (er_isnan _); [injection H as <-; eexists; repeat split; reflexivity|].
    rewrite sc_quad.
    set (stack := [mkRegion ER a b _ _ _ _ _]) in H.
    pose proof (sc_loop fuel tol maxeval (u32 (c0 + 3)) (Fin 0) stack
      (x_from_t ER (ndiv ER (nadd ER a b) (nofZ ER 2)) :: x_from_t ER b :: x_from_t ER a :: tr) []) as L.
    replace (sc (Fin 0)) with (Fin 0) in L by (unfold sc; cbn; f_equal; ring).
    change (nofZ ER 0) with (Fin 0) in *.
    destruct (maq_loop ER f fuel tol maxeval (u32 (c0 + 3)) (Fin 0) stack _ []) as [[[[[ex ig] cn] t2] ac]| |] eqn:E;
      try discriminate.
    cbn [obind] in H. injection H as <-.
    cbn [sc_out map] in L. subst stack. cbn [map sc_region rg_a rg_b rg_c rg_fa rg_fb rg_fc rg_r] in L.
    unfold sc_region in L. cbn [rg_a rg_b rg_c rg_fa rg_fb rg_fc rg_r] in L.
    rewrite L. cbn [obind]. eexists. repeat split; reflexivity.
  Qed.
End Scale.
