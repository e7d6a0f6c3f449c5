(** * When a successful integration in double precision is a number *)
From Coq Require Import ZArith Reals Lra Lia Bool List.
From Coq Require Import Floats.SpecFloat.
From Flocq Require Import Core BinarySingleNaN.
From Verif Require Import Num Maq Maq_spec Maq_search_proofs Maq_search_proofs2 Maq_loop_proofs Maq_proofs
  Double_spec Double_proofs Double_proofs2 Maq_double_spec Maq_double_proofs Maq_double_proofs2.
Import ListNotations.
Local Open Scope R_scope.

Definition bd (k : Z) (x : F64) : Prop := double x /\ finite_ x /\ Rabs (value x) <= bpow radix2 k.

Lemma rnd_bd : forall r k, (-1000 <= k)%Z -> Rabs r <= bpow radix2 k -> Rabs (rnd 53 1024 r) <= bpow radix2 k.
Proof.
  intros r k Hk H.
  assert (E : rnd 53 1024 (bpow radix2 k) = bpow radix2 k) by (apply rnd_power; unfold SpecFloat.fexp, SpecFloat.emin; lia).
  apply Rabs_le_inv in H. apply Rabs_le. rewrite <- E, <- rnd_opp. split; apply (rnd_le 53 1024 p53'); lra.
Qed.
Lemma fits : forall r k, (-1000 <= k < 1024)%Z -> Rabs r <= bpow radix2 k -> Rabs (rnd 53 1024 r) < bpow radix2 1024.
Proof. intros r k Hk H. apply Rle_lt_trans with (1 := rnd_bd r k (proj1 Hk) H). apply bpow_lt. lia. Qed.

Lemma twice_bpow : forall k, bpow radix2 k + bpow radix2 k = bpow radix2 (k + 1).
Proof. intros k. rewrite bpow_plus. change (bpow radix2 1) with 2. ring. Qed.

Lemma bd_add : forall k x y, (-1000 <= k < 1023)%Z -> bd k x -> bd k y -> bd (k + 1) (nadd F64 x y).
Proof.
  intros k x y Hk (Dx & Fx & Bx) (Dy & Fy & By).
  assert (B : Rabs (value x + value y) <= bpow radix2 (k + 1)).
  { rewrite <- twice_bpow. eapply Rle_trans; [apply Rabs_triang|]. lra. }
  destruct (add_value 53 1024 p53' e1024' x y Dx Dy Fx Fy) as [F E]; [apply (fits _ (k + 1)); [lia|exact B]|].
  split; [apply (valid_add 53 1024 p53' e1024'); assumption|]. split; [exact F|].
  change (Rabs (value (SFadd 53 1024 x y)) <= bpow radix2 (k + 1)). rewrite E. apply rnd_bd; [lia|exact B].
Qed.
Lemma bd_sub : forall k x y, (-1000 <= k < 1023)%Z -> bd k x -> bd k y -> bd (k + 1) (nsub F64 x y).
Proof.
  intros k x y Hk (Dx & Fx & Bx) (Dy & Fy & By).
  assert (B : Rabs (value x - value y) <= bpow radix2 (k + 1)).
  { rewrite <- twice_bpow. unfold Rminus. eapply Rle_trans; [apply Rabs_triang|]. rewrite Rabs_Ropp. lra. }
  destruct (sub_value 53 1024 p53' e1024' x y Dx Dy Fx Fy) as [F E]; [apply (fits _ (k + 1)); [lia|exact B]|].
  split; [apply (valid_sub 53 1024 p53' e1024'); assumption|]. split; [exact F|].
  change (Rabs (value (SFsub 53 1024 x y)) <= bpow radix2 (k + 1)). rewrite E. apply rnd_bd; [lia|exact B].
Qed.
Lemma bd_mul : forall j k x y, (-1000 <= j + k < 1024)%Z -> bd j x -> bd k y -> bd (j + k) (nmul F64 x y).
Proof.
  intros j k x y Hk (Dx & Fx & Bx) (Dy & Fy & By).
  assert (B : Rabs (value x * value y) <= bpow radix2 (j + k)).
  { rewrite bpow_plus, Rabs_mult. apply Rmult_le_compat; try apply Rabs_pos; assumption. }
  destruct (mul_value 53 1024 p53' e1024' x y Dx Dy Fx Fy) as [F E]; [apply (fits _ (j + k)); [lia|exact B]|].
  split; [apply (valid_mul 53 1024 p53' e1024'); assumption|]. split; [exact F|].
  change (Rabs (value (SFmul 53 1024 x y)) <= bpow radix2 (j + k)). rewrite E. apply rnd_bd; [lia|exact B].
Qed.
(** Divided by at least 1. *)
Lemma bd_div : forall k x y, (-1000 <= k < 1024)%Z -> bd k x -> double y -> 1 <= value y -> bd k (ndiv F64 x y).
Proof.
  intros k x y Hk (Dx & Fx & Bx) Dy Ly.
  assert (B : Rabs (value x / value y) <= bpow radix2 k).
  { unfold Rdiv. rewrite Rabs_mult. rewrite <- (Rmult_1_r (bpow radix2 k)).
    apply Rmult_le_compat; try apply Rabs_pos; [exact Bx|].
    rewrite Rabs_pos_eq by (left; apply Rinv_0_lt_compat; lra). rewrite <- Rinv_1. apply Rinv_le_contravar; lra. }
  destruct (div_value 53 1024 p53' e1024' x y Dx Dy Fx ltac:(lra)) as [F E]; [apply (fits _ k); [lia|exact B]|].
  split; [apply (valid_div 53 1024 p53' e1024'); assumption|]. split; [exact F|].
  change (Rabs (value (SFdiv 53 1024 x y)) <= bpow radix2 k). rewrite E. apply rnd_bd; [lia|exact B].
Qed.
Lemma bd_up : forall j k x, (j <= k)%Z -> bd j x -> bd k x.
Proof. intros j k x H (D & F & B). split; [exact D|]. split; [exact F|]. apply Rle_trans with (1 := B). apply bpow_le. exact H. Qed.

(** Adding a finite number to a number gives a number. *)
Lemma add_number : forall x y, double x -> double y -> x <> S754_nan -> finite_ y -> nadd F64 x y <> S754_nan.
Proof.
  intros x y Dx Dy Nx Fy. destruct (lift 53 1024 x Dx) as [a ->]. destruct (lift 53 1024 y Dy) as [b ->].
  cbn [nadd F64]. change (SFadd f64_prec f64_emax) with (SFadd 53 1024). rewrite (add_same 53 1024 p53' e1024').
  apply finite_B in Fy. destruct (is_finite a) eqn:Fa.
  - generalize (Bplus_correct 53 1024 p53' e1024' mode_NE a b Fa Fy). destruct (Rlt_bool _ _).
    + intros (_ & F & _) E. destruct (Bplus mode_NE a b); discriminate.
    + intros (E & _) H. rewrite E in H. destruct (Bsign a); discriminate.
  - destruct a as [s|s| |s m e Q]; try discriminate; [|exfalso; apply Nx; reflexivity].
    destruct b as [t|t| |t m e Q]; try discriminate; destruct s; discriminate.
Qed.

Section P.
  Variable f : F64 -> F64.
  Hypothesis Hf : moderate_integrand f.

  Lemma big_is : let y := S754_finite false 4503599627370496 948 in double y /\ finite_ y /\ value y = bpow radix2 1000.
  Proof.
    cbv zeta. split; [reflexivity|]. split; [reflexivity|].
    change (value (S754_finite false 4503599627370496 948)) with (F2R (Float radix2 (2 ^ 52) 948)).
    unfold F2R. cbn [Fnum Fexp]. change (IZR (2 ^ 52)) with (bpow radix2 52). rewrite <- bpow_plus. reflexivity.
  Qed.

  Lemma moderate_bd : forall v, double v -> moderate v -> v = S754_nan \/ bd 1000 v.
  Proof.
    intros v D [H|H]; [left; exact H|]. right. destruct big_is as (Db & Fb & Eb).
    assert (F : finite_ v) by (destruct v as [[]|[]| |[] m e]; try reflexivity; discriminate).
    split; [exact D|]. split; [exact F|].
    apply (leb_value 53 1024) in H; [|apply (valid_abs 53 1024), D|exact Db|apply finite_abs, F|exact Fb].
    rewrite Eb, abs_value in H. exact H.
  Qed.

  Definition Tm (t g : F64) : Prop := g = S754_nan \/ bd 1000 g.

  Lemma finite_of : forall t, finite_ t -> finite t.
  Proof. intros [s|s| |s m e] H; try discriminate; exact Logic.I. Qed.

  Lemma eval_moderate : forall t, double t -> finite_ t -> Tm t (eval_at F64 f t).
  Proof.
    intros t D F. destruct (proj2 Hf t D (finite_of t F)) as [H1 H2]. apply moderate_bd; [|exact H2].
    apply (valid_div 53 1024 p53' e1024'); [exact H1|]. apply (valid_mul 53 1024 p53' e1024'); assumption.
  Qed.
  Lemma left_moderate : forall t, double t -> finite_ t -> Tm t (eval_left F64 f t).
  Proof.
    intros t D F. unfold eval_left. destruct (neqb F64 t (nofZ F64 0)) eqn:E; [|apply eval_moderate; assumption].
    destruct (proj2 Hf t D (finite_of t F)) as [H1 _]. unfold at_point in H1. change zero with (nofZ F64 0) in H1.
    unfold x_from_t. rewrite E in *. cbn [ninf F64].
    destruct (moderate_bd _ H1 (proj1 Hf)) as [N|B]; [left; rewrite N; reflexivity|right].
    apply bd_div; [lia|exact B|apply one_is|]. rewrite (proj2 (proj2 one_is)). lra.
  Qed.

  Lemma HQm : forall a b c, Q a b -> midpoint F64 a b c -> Q a c /\ Q c b /\ Tm c (eval_at F64 f c).
  Proof.
    intros a b c (Wa & Wb & L) M.
    assert (Hc : double c /\ finite_ c /\ value a <= value c <= value b).
    { destruct Wa as (Da & Fa & Ba). destruct Wb as (Db & Fb & Bb).
      destruct M as [-> | ->]; apply mid_between; try assumption; try (split; [assumption|split; assumption]); lra. }
    destruct Hc as (Dc & Fc & Bc).
    assert (Wc : within (-2) 2 c) by (destruct Wa as (_ & _ & Ba); destruct Wb as (_ & _ & Bb); split; [exact Dc|split; [exact Fc|lra]]).
    split; [split; [exact Wa|split; [exact Wc|lra]]|]. split; [split; [exact Wc|split; [exact Wb|lra]]|].
    apply eval_moderate; assumption.
  Qed.

  Lemma nan_add_l : forall y, nadd F64 S754_nan y = S754_nan.
  Proof. intros [[]|[]| |[] m e]; reflexivity. Qed.
  Lemma nan_add_r : forall x, nadd F64 x S754_nan = S754_nan.
  Proof. intros [[]|[]| |[] m e]; reflexivity. Qed.
  Lemma nan_mul_r : forall x, nmul F64 x S754_nan = S754_nan.
  Proof. intros [[]|[]| |[] m e]; reflexivity. Qed.
  Lemma nan_sub_l : forall y, nsub F64 S754_nan y = S754_nan.
  Proof. intros [[]|[]| |[] m e]; reflexivity. Qed.
  Lemma nan_sub_r : forall x, nsub F64 x S754_nan = S754_nan.
  Proof. intros [[]|[]| |[] m e]; reflexivity. Qed.

  Lemma four_is : bd 2 (nofZ F64 4).
  Proof.
    split; [reflexivity|]. split; [reflexivity|]. change (nofZ F64 4) with (S754_finite false 4503599627370496 (-50)).
    unfold value, SF2R, F2R. cbn. rewrite Rabs_pos_eq; lra.
  Qed.
  Lemma six_is : double (nofZ F64 6) /\ 1 <= value (nofZ F64 6).
  Proof.
    split; [reflexivity|]. unfold value, SF2R, F2R. cbn. lra.
  Qed.

  Lemma simpson_bd : forall a b t1 t2 t3 ga gc gb, Q a b -> Tm t1 ga -> Tm t2 gc -> Tm t3 gb ->
    simpson F64 a b ga gc gb = S754_nan \/ bd 1007 (simpson F64 a b ga gc gb).
  Proof.
    intros a b t1 t2 t3 ga gc gb ((Da & Fa & Ba) & (Db & Fb & Bb) & L) Ha Hc Hb. unfold simpson.
    destruct Ha as [-> |Ha]; [left; rewrite !nan_add_l; apply nan_mul_r|].
    destruct Hc as [-> |Hc]; [left; rewrite nan_mul_r, nan_add_r, nan_add_l; apply nan_mul_r|].
    destruct Hb as [-> |Hb]; [left; rewrite nan_add_r; apply nan_mul_r|]. right.
    assert (W : bd 2 (nsub F64 b a)).
    { apply (bd_sub 1); [lia| |]; (split; [assumption|split; [assumption|]]); apply Rabs_le; change (bpow radix2 1) with 2; lra. }
    change 1007%Z with (2 + (1004 + 1))%Z. apply bd_mul; [lia| |].
    - apply bd_div; [lia|exact W|apply six_is|apply six_is].
    - apply bd_add; [lia| |apply (bd_up 1000); [lia|exact Hb]].
      apply (bd_up (1002 + 1)); [lia|]. apply bd_add; [lia|apply (bd_up 1000); [lia|exact Ha]|].
      change 1002%Z with (2 + 1000)%Z. apply bd_mul; [lia|exact four_is|exact Hc].
  Qed.

  Lemma success_number : forall (s : settings F64) fuel r, limits_ok s ->
    MAQ F64 f fuel s = Done r -> mr_successful r = true -> nisnan F64 (mr_integral r) = false.
  Proof.
    intros s fuel r Hs H Es.
    enough (N : mr_integral r <> S754_nan) by (destruct (mr_integral r); try reflexivity; exfalso; apply N; reflexivity).
    destruct (mr_range r) as [[a b]|] eqn:Hr.
    2:{ unfold MAQ in H. destruct (search F64 f (set_method s) fuel (set_search_limit s)) as [sr| |]; try discriminate.
        cbn [obind] in H. destruct (sr_range sr) as [[a b]|]; [|injection H as <-; discriminate].
        destruct (nisnan F64 a); [injection H as <-; discriminate|]. exfalso.
        unfold integrate_range in H.
        destruct (nisnan F64 (eval_left F64 f a)); [injection H as <-; discriminate|].
        destruct (nisnan F64 (eval_at F64 f b)); [injection H as <-; discriminate|].
        destruct (nisnan F64 (eval_at F64 f (ndiv F64 (nadd F64 a b) (nofZ F64 2)))); [injection H as <-; discriminate|].
        match type of H with obind ?o _ = _ => destruct o as [[[[[ex ig] cn] t2] ac]| |] end; try discriminate.
        injection H as <-. discriminate. }
    destruct (MAQ_range_inv F64 f F64_order_ok s fuel r a b Hs H Hr) as [sr [E [Er _]]].
    destruct (search_range_ok f _ fuel _ sr (a, b) (proj1 Hs) E Er) as (A & B & HA & HB & L1 & L2 & _).
    cbn [fst snd] in *.
    assert (Hab : Q a b).
    { destruct HA as (Da & Fa & Ea). destruct HB as (Db & Fb & Eb).
      split; [split; [exact Da|split; [exact Fa|lra]]|]. split; [split; [exact Db|split; [exact Fb|lra]]|lra]. }
    destruct (MAQ_range_post F64 f F64_order_ok s fuel r a b Tm Q Hs HQm Hab) as (n0 & it & _ & P); try assumption.
    { apply left_moderate; apply HA. }
    { apply eval_moderate; apply HB. }
    apply (rp_success _ _ _ _ _ _ _ _ _ _ _ P) in Es.
    destruct (rp_ok _ _ _ _ _ _ _ _ _ _ _ P Es) as (G1 & _ & G3 & ->).
    assert (R : double (running_sum F64 (mr_accepted r)) /\ running_sum F64 (mr_accepted r) <> S754_nan); [|apply R].
    clear - G1 G3 Hf. induction (mr_accepted r) as [|x l IH]; cbn [running_sum]; [split; [reflexivity|discriminate]|].
    inversion G1 as [|x' l' Hx Hl]; subst. destruct G3 as [Eb G3]. destruct (IH Hl G3) as [D N].
    destruct Hx as (Hq & c & d & e & ga & gb & gc & gd & ge & Mc & Md & Me & Ta & Tb & Tc & Td & Te & E2 & Ec & Er).
    destruct (HQm _ _ _ Hq Mc) as (Q1 & Q2 & _).
    assert (S0 := simpson_bd _ _ _ _ _ _ _ _ Hq Ta Tc Tb).
    assert (S1 := simpson_bd _ _ _ _ _ _ _ _ Q1 Ta Td Tc).
    assert (S2 := simpson_bd _ _ _ _ _ _ _ _ Q2 Tc Te Tb).
    assert (Nd : nsub F64 (ac_q2 x) (simpson F64 (rg_a (ac_region x)) (rg_b (ac_region x)) ga gc gb) <> S754_nan).
    { intros En. rewrite En in Er. destruct Er as [Er|Er]; discriminate. }
    destruct S0 as [S0|S0]; [rewrite S0, nan_sub_r in Nd; exfalso; apply Nd; reflexivity|].
    destruct S1 as [S1|S1]; [rewrite E2, S1, nan_add_l, nan_sub_l in Nd; exfalso; apply Nd; reflexivity|].
    destruct S2 as [S2|S2]; [rewrite E2, S2, nan_add_r, nan_sub_l in Nd; exfalso; apply Nd; reflexivity|].
    assert (B2 : bd 1008 (ac_q2 x)) by (rewrite E2; apply (bd_add 1007); [lia|exact S1|exact S2]).
    assert (Bc : bd 1009 (ac_corr x)).
    { rewrite Ec. destruct fifteen as (D15 & F15 & E15). apply bd_div; [lia| |exact D15|rewrite E15; lra].
      apply (bd_sub 1008); [lia|exact B2|]. apply (bd_up 1007); [lia|exact S0]. }
    assert (Na : nadd F64 (running_sum F64 l) (ac_q2 x) <> S754_nan) by (apply add_number; [exact D|apply B2|exact N|apply B2]).
    assert (Da : double (nadd F64 (running_sum F64 l) (ac_q2 x))) by (apply (valid_add 53 1024 p53' e1024'); [exact D|apply B2]).
    split; [apply (valid_add 53 1024 p53' e1024'); [exact Da|apply Bc]|].
    apply add_number; [exact Da|apply Bc|exact Na|apply Bc].
  Qed.
End P.

(** ** A non-negative finite integrand that gives a successful NaN: 2^1020 at 1, 2^1018
    at 3, 2^1022 at 0 and around 1/15 and 1/3, nothing elsewhere. *)
Definition spikes (x : F64) : F64 :=
  let v := fun e => S754_finite false 4503599627370496 e in
  let hundredths := fun z => ndiv F64 (nofZ F64 z) (nofZ F64 100) in
  if neqb F64 x one then v 968%Z
  else if neqb F64 x (nofZ F64 3) then v 966%Z
  else if nltb F64 (hundredths 33%Z) x && nltb F64 x (hundredths 34%Z) then v 970%Z
  else if nltb F64 (hundredths 6%Z) x && nltb F64 x (hundredths 7%Z) then v 970%Z
  else if neqb F64 x zero then v 970%Z
  else zero.
Lemma refute_double : exists f r, (forall x, double x -> double (f x) /\ finite (f x) /\ nleb F64 zero (f x) = true) /\
  MAQ F64 f 4200 (default_settings F64) = Done r /\ mr_successful r = true /\ nisnan F64 (mr_integral r) = true.
Proof.
  exists spikes.
  assert (H : match MAQ F64 spikes 4200 (default_settings F64) with
              | Done r => mr_successful r && nisnan F64 (mr_integral r) | _ => false end = true) by (vm_compute; reflexivity).
  destruct (MAQ F64 spikes 4200 (default_settings F64)) as [r| |]; try discriminate.
  apply andb_prop in H. exists r. split; [|split; [reflexivity|exact H]].
  intros x _. unfold spikes. destruct (neqb F64 x one); [split; [reflexivity|split; [exact Logic.I|reflexivity]]|].
  do 4 (match goal with |- context [if ?c then _ else _] => destruct c end; [split; [reflexivity|split; [exact Logic.I|reflexivity]]|]).
  (split; [reflexivity|split; [exact Logic.I|reflexivity]]).
Qed.

(** The integrand 0 is moderate: 0 divided by a square is 0 or not a number. *)
Lemma nothing_moderate : moderate_integrand (fun _ => zero).
Proof.
  split; [right; reflexivity|]. intros t D F. split; [reflexivity|]. unfold at_point.
  destruct (nmul F64 t t) as [s|s| |s m e]; [left; reflexivity|destruct s; right; reflexivity|left; reflexivity|destruct s; right; reflexivity].
Qed.

(** 1 from 0 to 2, nothing elsewhere. *)
Definition box (x : F64) : F64 := if nleb F64 zero x && nleb F64 x (nofZ F64 2) then one else zero.

Lemma zero_over : forall y, moderate (ndiv F64 zero y).
Proof. intros [s|s| |s m e]; [left; reflexivity|destruct s; right; reflexivity|left; reflexivity|destruct s; right; reflexivity]. Qed.

Lemma box_outside : forall t, double t -> finite_ t -> value t < 1 / 4 -> at_point box t = zero.
Proof.
  intros t D F L. unfold at_point. destruct (neqb F64 t zero) eqn:E0; [reflexivity|].
  assert (N0 : value t <> 0).
  { destruct t as [s|s| |s m e]; try discriminate.
    destruct s; [apply Rlt_not_eq, value_neg|apply Rgt_not_eq, value_pos]. }
  unfold box. destruct one_is as (D1 & F1 & E1). change (nofZ F64 1) with one in *.
  set (y := ndiv F64 one t).
  assert (Dy : double y) by (apply (valid_div 53 1024 p53' e1024'); assumption).
  assert (C : (exists s, y = S754_infinity s) \/ (finite_ y /\ value y = rnd 53 1024 (1 / value t))).
  { destruct (lift 53 1024 one D1) as [o Eo]. destruct (lift 53 1024 t D) as [b Eb].
    subst y. rewrite Eo, Eb. cbn [ndiv F64]. change (SFdiv f64_prec f64_emax) with (SFdiv 53 1024).
    rewrite (div_same 53 1024 p53' e1024').
    assert (Nb : B2R b <> 0) by (rewrite Eb, value_B in N0; exact N0).
    generalize (Bdiv_correct 53 1024 p53' e1024' mode_NE o b Nb).
    assert (Eo' : B2R o = 1) by (rewrite <- value_B, <- Eo; exact E1). rewrite Eo'.
    destruct (Rlt_bool _ _).
    - intros (E & Fo & _). right. rewrite value_B. split.
      + apply finite_B. rewrite Fo. apply finite_B. rewrite <- Eo. exact F1.
      + rewrite E, value_B. reflexivity.
    - intros E. left. rewrite E. eexists. reflexivity. }
  destruct C as [[s E]|[Fy Ey]].
  - rewrite E. destruct s; reflexivity.
  - assert (H : value y <= 0 \/ 4 <= value y).
    { rewrite Ey. destruct (Rlt_le_dec (value t) 0) as [Ln|Lp].
      - left. rewrite <- rnd64_0. apply (rnd_le 53 1024 p53'). left. unfold Rdiv. rewrite Rmult_1_l. apply Rinv_lt_0_compat. exact Ln.
      - right. assert (E4 : rnd 53 1024 4 = 4) by exact (rnd64_pow 2 ltac:(lia)). rewrite <- E4. apply (rnd_le 53 1024 p53').
        unfold Rdiv. rewrite Rmult_1_l. replace 4 with (/ (1 / 4)) by field. apply Rinv_le_contravar; lra. }
    set (x := nsub F64 y one).
    assert (Hx : (finite_ x /\ (value x < 0 \/ 2 < value x)) \/ exists s, x = S754_infinity s).
    { destruct (lift 53 1024 y Dy) as [b Eb]. destruct (lift 53 1024 one D1) as [o Eo].
      assert (Eo' : B2R o = 1) by (rewrite <- value_B, <- Eo; exact E1).
      unfold x. rewrite Eo, Eb in *. cbn [nsub F64]. change (SFsub f64_prec f64_emax) with (SFsub 53 1024).
      rewrite (sub_same 53 1024 p53' e1024'). apply finite_B in Fy. apply finite_B in F1. rewrite value_B in H.
      generalize (Bminus_correct 53 1024 p53' e1024' mode_NE b o Fy F1). rewrite Eo'.
      destruct (Rlt_bool _ _).
      - intros (E & Fo & _). left. split; [apply finite_B, Fo|]. rewrite value_B, E.
        change (rnd 53 1024 (B2R b - 1) < 0 \/ 2 < rnd 53 1024 (B2R b - 1)).
        destruct H as [H|H].
        + left. apply Rle_lt_trans with (-1); [|lra]. rewrite <- rnd64_m1. apply (rnd_le 53 1024 p53'). lra.
        + right. apply Rlt_le_trans with 3; [lra|].
          assert (E3 : rnd 53 1024 3 = 3).
          { apply round_generic; [apply valid_rnd_N|]. change (generic_format radix2 (FLT_exp (3 - 1024 - 53) 53) 3).
            apply generic_format_FLT. exists (Float radix2 3 0); [unfold F2R; cbn; ring|reflexivity|cbn; lia]. }
          rewrite <- E3. apply (rnd_le 53 1024 p53'). lra.
      - intros (E & _). right. rewrite E. eexists. reflexivity. }
    destruct Hx as [[Fx Hx]|[s E]]; [|rewrite E; destruct s; reflexivity].
    assert (Dx : double x) by (apply (valid_sub 53 1024 p53' e1024'); assumption).
    destruct (nleb F64 zero x) eqn:L0; [|reflexivity]. destruct (nleb F64 x (nofZ F64 2)) eqn:L2; [|reflexivity].
    exfalso. destruct two_ok as (D2 & F2 & E2). unfold two in *.
    apply (leb_value 53 1024) in L0; try assumption; try apply zero_ok. apply (leb_value 53 1024) in L2; try assumption.
    change zero with (nofZ F64 0) in L0. rewrite (proj2 (proj2 zero_ok)) in L0. rewrite E2 in L2. lra.
Qed.

Lemma box_moderate : moderate_integrand box.
Proof.
  split; [right; reflexivity|]. intros t D Ft.
  assert (F : finite_ t) by (destruct t as [s|s| |s m e]; try reflexivity; contradiction).
  split; [unfold at_point, box; destruct (_ && _); reflexivity|].
  destruct (Rlt_le_dec (value t) (1 / 4)) as [L|L]; [rewrite (box_outside t D F L); apply zero_over|].
  assert (C : at_point box t = zero \/ at_point box t = one) by (unfold at_point, box; destruct (_ && _); auto).
  destruct C as [C|C]; rewrite C; [apply zero_over|].
  (* 1 / (t * t) with t * t >= 1/16, possibly infinite *)
  destruct (lift 53 1024 t D) as [b Eb]. set (y := nmul F64 t t).
  assert (Dy : double y) by (apply (valid_mul 53 1024 p53' e1024'); assumption).
  assert (E16 : rnd 53 1024 (bpow radix2 (-4)) = bpow radix2 (-4)) by (apply rnd_power; unfold SpecFloat.fexp, SpecFloat.emin; lia).
  assert (Hy : (exists s, y = S754_infinity s) \/ (finite_ y /\ bpow radix2 (-4) <= value y)).
  { unfold y. rewrite Eb. cbn [nmul F64]. change (SFmul f64_prec f64_emax) with (SFmul 53 1024).
    rewrite (mul_same 53 1024 p53' e1024'). rewrite Eb, value_B in L.
    generalize (Bmult_correct 53 1024 p53' e1024' mode_NE b b). destruct (Rlt_bool _ _).
    - intros (E & Fo & _). right. split; [apply finite_B; rewrite Fo; rewrite Eb in F; apply finite_B in F; rewrite F; reflexivity|].
      rewrite value_B, E. change (bpow radix2 (-4) <= rnd 53 1024 (B2R b * B2R b)). rewrite <- E16.
      apply (rnd_le 53 1024 p53'). change (bpow radix2 (-4)) with (/ 16). nra.
    - intros E. left. rewrite E. eexists. reflexivity. }
  destruct Hy as [[s E]|[Fy Ly]]; [rewrite E; destruct s; right; reflexivity|].
  destruct one_is as (D1 & F1 & E1). change (nofZ F64 1) with one in *. change (bpow radix2 (-4)) with (/ 16) in Ly.
  assert (B : Rabs (1 / value y) <= bpow radix2 4).
  { unfold Rdiv. rewrite Rmult_1_l. rewrite Rabs_pos_eq by (left; apply Rinv_0_lt_compat; lra). change (bpow radix2 4) with 16.
    replace 16 with (/ / 16) by field. apply Rinv_le_contravar; lra. }
  destruct (div_value 53 1024 p53' e1024' one y D1 Dy F1 ltac:(lra)) as [Fq Eq]; [rewrite E1; apply (fits _ 4); [lia|exact B]|].
  right. destruct big_is as (Db & Fb & Eb').
  apply (leb_value 53 1024); [apply (valid_abs 53 1024), (valid_div 53 1024 p53' e1024'); assumption|exact Db|apply finite_abs; exact Fq|exact Fb|].
  rewrite Eb', abs_value. change (Rabs (value (SFdiv 53 1024 one y)) <= bpow radix2 1000). rewrite Eq, E1.
  apply Rle_trans with (bpow radix2 4); [apply rnd_bd; [lia|exact B]|]. apply bpow_le. lia.
Qed.

Lemma box_case : exists r, MAQ F64 box 4200 (default_settings F64) = Done r /\ mr_successful r = true /\
  nltb F64 one (mr_integral r) = true.
Proof.
  assert (H : match MAQ F64 box 4200 (default_settings F64) with
              | Done r => mr_successful r && nltb F64 one (mr_integral r) | _ => false end = true) by (vm_compute; reflexivity).
  destruct (MAQ F64 box 4200 (default_settings F64)) as [r| |]; try discriminate.
  apply andb_prop in H. exists r. split; [reflexivity|exact H].
Qed.
