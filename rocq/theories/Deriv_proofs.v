(** * Proofs about numerical derivatives, without rounding *)
From Coquelicot Require Import Coquelicot.
From Coq Require Import Reals List Bool ZArith Lra Lia.
From Verif Require Import Num ER ERmath Functions Functions_spec Functions_proofs Group Deriv Deriv_spec.
Import ListNotations.
Local Open Scope R_scope.

Lemma div_fin : forall a b, b <> 0 -> er_div (Fin a) (Fin b) = Fin (a / b).
Proof. intros a b H. cbn. unfold Reqb. destruct (Req_EM_T b 0); [contradiction|reflexivity]. Qed.

Lemma num_er : forall z, num_of ER z = Fin (IZR z).
Proof. reflexivity. Qed.

Lemma ratio_er : forall a b, IZR b <> 0 -> ratio ER a b = Fin (IZR a / IZR b).
Proof. intros a b H. unfold ratio. apply div_fin. exact H. Qed.

Lemma larger_er : forall a b, exists c, larger ER (Fin a) (Fin b) = Fin c.
Proof. intros a b. unfold larger. cbn. destruct (Rltb b a); eexists; reflexivity. Qed.

Lemma add_fin : forall a b, er_add (Fin a) (Fin b) = Fin (a + b).
Proof. reflexivity. Qed.
Lemma mul_fin : forall a b, er_mul (Fin a) (Fin b) = Fin (a * b).
Proof. reflexivity. Qed.

(** The estimate of the central rule. *)
Definition central_value (m1 p1 mh ph h : R) : R := (4 / 3 * (ph - mh) - 1 / 3 * (1 / 2 * (p1 - m1))) / h.

Lemma sub_fin : forall a b, er_sub (Fin a) (Fin b) = Fin (a - b).
Proof. reflexivity. Qed.

Lemma central_rule : forall f x h m1 p1 mh ph, h <> 0 ->
  f (Fin (x - h)) = Fin m1 -> f (Fin (x + h)) = Fin p1 ->
  f (Fin (x - h / 2)) = Fin mh -> f (Fin (x + h / 2)) = Fin ph ->
  exists a b, central_deriv ER f (Fin x) (Fin h) = (Fin (central_value m1 p1 mh ph h), Fin a, Fin b).
Proof.
  intros f x h m1 p1 mh ph Hh E1 E2 E3 E4. unfold central_deriv. rewrite !ratio_er by lra. rewrite !num_er.
  cbn [nsub nadd nmul ndiv nabs nltb neps ER].
  rewrite !div_fin by lra. rewrite !sub_fin. cbn [er_add]. rewrite E1, E2, E3, E4.
  repeat (cbn [er_abs er_add er_mul]; rewrite ?sub_fin; rewrite ?div_fin by exact Hh).
  match goal with |- context [larger ER (Fin ?a) (Fin ?b)] => destruct (larger_er a b) as [c Ec]; rewrite Ec end.
  repeat (cbn [er_abs er_add er_mul]; rewrite ?sub_fin; rewrite ?div_fin by exact Hh).
  eexists. eexists. unfold central_value. reflexivity.
Qed.

Lemma central_nan : forall f x h, h <> 0 ->
  f (Fin (x - h)) = NaN \/ f (Fin (x + h)) = NaN \/ f (Fin (x - h / 2)) = NaN \/ f (Fin (x + h / 2)) = NaN ->
  exists a, central_deriv ER f (Fin x) (Fin h) = (NaN, a, NaN).
Proof.
  intros f x h Hh H. unfold central_deriv. rewrite !ratio_er by lra. rewrite !num_er.
  cbn [nsub nadd nmul ndiv nabs nltb neps ER].
  rewrite !div_fin by lra. rewrite !sub_fin. cbn [er_add].
  set (A := f (Fin (x - h))) in *. set (B := f (Fin (x + h))) in *.
  set (C := f (Fin (x - h / 2))) in *. set (D := f (Fin (x + h / 2))) in *. clearbody A B C D.
  assert (Q : er_sub (er_mul (Fin (4 / 3)) (er_sub D C)) (er_mul (Fin (1 / 3)) (er_mul (Fin (1 / 2)) (er_sub B A))) = NaN).
  { assert (S1 : forall a, er_sub NaN a = NaN) by reflexivity.
    assert (S2 : forall a, er_sub a NaN = NaN) by (intros [| | |]; reflexivity).
    assert (S3 : forall a, er_mul a NaN = NaN) by (intros [| | |]; reflexivity).
    destruct H as [-> | [-> | [-> | ->]]]; rewrite ?S1, ?S2, ?S3, ?S1, ?S2; reflexivity. }
  rewrite Q. cbn. eexists. reflexivity.
Qed.

(** Both steps in [better]. *)
Lemma better_fin : forall rule h best (P : R -> Prop), 0 < h ->
  (forall a b, 0 < a < b -> exists q, best (Fin a) (Fin b) = Fin q /\ 0 < q <= 1) ->
  (forall k, 0 < k <= h -> exists r a b, rule (Fin k) = (Fin r, Fin a, Fin b) /\ P r) ->
  exists r, better ER rule (Fin h) best = Fin r /\ P r.
Proof.
  intros rule h best P Hh Hb Hr. unfold better.
  destruct (Hr h) as (r & a & b & -> & Pr); [lra|].
  cbn [nltb nadd ER]. rewrite num_er. cbn [er_ltb er_add].
  destruct (Rltb a b && (Rltb 0 a && Rltb 0 b)) eqn:G; [|exists r; split; [reflexivity|exact Pr]].
  apply andb_prop in G. destruct G as [G1 G]. apply andb_prop in G. destruct G as [G2 _].
  unfold Rltb in G1, G2. destruct (Rlt_dec a b) as [G1'|]; [|discriminate]. destruct (Rlt_dec 0 a) as [G2'|]; [|discriminate].
  destruct (Hb a b) as (q & -> & Hq); [lra|]. cbn [nmul ER er_mul].
  destruct (Hr (h * q)) as (r' & a' & b' & -> & Pr').
  { split; [apply Rmult_lt_0_compat; lra|]. rewrite <- (Rmult_1_r h) at 2. apply Rmult_le_compat_l; lra. }
  destruct (_ && _); eexists; (split; [reflexivity|assumption]).
Qed.

Lemma pow_step : forall q y, 0 < q <= 1 -> 0 < y -> exists p, er_pow (Fin q) (Fin y) = Fin p /\ 0 < p <= 1.
Proof.
  intros q y [H1 H2] Hy. exists (Rpower q y). split.
  - cbn. unfold Rltb. destruct (Rlt_dec 0 q); [reflexivity|contradiction].
  - unfold Rpower. split; [apply exp_pos|]. rewrite <- exp_0. 
    assert (ln q <= 0). { rewrite <- ln_1. destruct H2 as [H2| ->]; [left; apply ln_increasing; lra|right; reflexivity]. }
    assert (y * ln q <= 0). { replace (y * ln q) with (- (y * - ln q)) by ring. assert (0 <= y * - ln q) by (apply Rmult_le_pos; lra). lra. }
    destruct H0 as [H0| ->]; [left; apply exp_increasing; exact H0|right; reflexivity].
Qed.

Lemma quot_le : forall a b, 0 < a < b -> 0 < a / b <= 1.
Proof.
  intros a b H. split; [apply Rdiv_lt_0_compat; lra|]. apply (Rmult_le_reg_r b); [lra|].
  unfold Rdiv. rewrite Rmult_assoc, Rinv_l by lra. lra.
Qed.

Lemma central_of : forall f x h (P : R -> Prop), 0 < h ->
  (forall k, 0 < k <= h -> exists m1 p1 mh ph, f (Fin (x - k)) = Fin m1 /\ f (Fin (x + k)) = Fin p1 /\
     f (Fin (x - k / 2)) = Fin mh /\ f (Fin (x + k / 2)) = Fin ph /\ P (central_value m1 p1 mh ph k)) ->
  exists r, gsl_central ER er_pow (Fin h) f (Fin x) = Fin r /\ P r.
Proof.
  intros f x h P Hh H. unfold gsl_central. apply better_fin; [exact Hh| |].
  - intros a b Hab. rewrite ratio_er by lra. rewrite num_er. cbn [ndiv nmul ER er_mul]. rewrite div_fin by lra.
    apply pow_step; [|lra]. apply quot_le. lra.
  - intros k Hk. destruct (H k Hk) as (m1 & p1 & mh & ph & E1 & E2 & E3 & E4 & Pk).
    destruct (central_rule f x k m1 p1 mh ph) as (a & b & E); try assumption; [lra|].
    eexists. exists a, b. split; [exact E|exact Pk].
Qed.

Lemma central_undefined : forall f x h, 0 < h ->
  f (Fin (x - h)) = NaN \/ f (Fin (x + h)) = NaN \/ f (Fin (x - h / 2)) = NaN \/ f (Fin (x + h / 2)) = NaN ->
  gsl_central ER er_pow (Fin h) f (Fin x) = NaN.
Proof.
  intros f x h Hh H. unfold gsl_central, better. destruct (central_nan f x h) as [a ->]; [lra|exact H|].
  replace (nltb ER a NaN) with false by (destruct a; reflexivity). reflexivity.
Qed.

(** ** The forward rule *)
Definition forward_value (f1 f2 f3 f4 h : R) : R :=
  (22 / 3 * (f4 - f3) - 62 / 3 * (f3 - f2) + 52 / 3 * (f2 - f1)) / h.

Lemma forward_rule : forall f x h f1 f2 f3 f4, h <> 0 ->
  f (Fin (x + h / 4)) = Fin f1 -> f (Fin (x + h / 2)) = Fin f2 ->
  f (Fin (x + 3 / 4 * h)) = Fin f3 -> f (Fin (x + h)) = Fin f4 ->
  exists a b, forward_deriv ER f (Fin x) (Fin h) = (Fin (forward_value f1 f2 f3 f4 h), Fin a, Fin b).
Proof.
  intros f x h f1 f2 f3 f4 Hh E1 E2 E3 E4. unfold forward_deriv. rewrite !ratio_er by lra. rewrite !num_er.
  cbn [nsub nadd nmul ndiv nabs nltb neps ER].
  rewrite !div_fin by lra. cbn [er_mul er_add]. rewrite E1, E2, E3, E4.
  repeat (cbn [er_abs er_add er_mul]; rewrite ?sub_fin; rewrite ?div_fin by exact Hh).
  match goal with |- context [larger ER (Fin ?a) (Fin ?b)] => destruct (larger_er a b) as [c Ec]; rewrite Ec end.
  repeat (cbn [er_abs er_add er_mul]; rewrite ?sub_fin; rewrite ?div_fin by exact Hh).
  eexists. eexists. unfold forward_value. reflexivity.
Qed.

Lemma forward_nan : forall f x h, h <> 0 ->
  f (Fin (x + h / 4)) = NaN \/ f (Fin (x + h / 2)) = NaN \/ f (Fin (x + 3 / 4 * h)) = NaN \/ f (Fin (x + h)) = NaN ->
  exists a, forward_deriv ER f (Fin x) (Fin h) = (NaN, a, NaN).
Proof.
  intros f x h Hh H. unfold forward_deriv. rewrite !ratio_er by lra. rewrite !num_er.
  cbn [nsub nadd nmul ndiv nabs nltb neps ER].
  rewrite !div_fin by lra. rewrite !mul_fin, !add_fin.
  set (A := f (Fin (x + h / 4))) in *. set (B := f (Fin (x + h / 2))) in *.
  set (C := f (Fin (x + 3 / 4 * h))) in *. set (D := f (Fin (x + h))) in *. clearbody A B C D.
  assert (Q : er_add (er_sub (er_mul (Fin (22 / 3)) (er_sub D C)) (er_mul (Fin (62 / 3)) (er_sub C B)))
                     (er_mul (Fin (52 / 3)) (er_sub B A)) = NaN).
  { assert (S1 : forall a, er_sub NaN a = NaN) by reflexivity.
    assert (S2 : forall a, er_sub a NaN = NaN) by (intros [| | |]; reflexivity).
    assert (S3 : forall a, er_mul a NaN = NaN) by (intros [| | |]; reflexivity).
    assert (S4 : forall a, er_add a NaN = NaN) by (intros [| | |]; reflexivity).
    destruct H as [-> | [-> | [-> | ->]]]; rewrite ?S1, ?S2, ?S3, ?S1, ?S2, ?S4; reflexivity. }
  rewrite Q. cbn. eexists. reflexivity.
Qed.

Lemma better_fin_neg : forall rule h best (P : R -> Prop), h < 0 ->
  (forall a b, 0 < a < b -> exists q, best (Fin a) (Fin b) = Fin q /\ 0 < q <= 1) ->
  (forall k, h <= k < 0 -> exists r a b, rule (Fin k) = (Fin r, Fin a, Fin b) /\ P r) ->
  exists r, better ER rule (Fin h) best = Fin r /\ P r.
Proof.
  intros rule h best P Hh Hb Hr. unfold better.
  destruct (Hr h) as (r & a & b & -> & Pr); [lra|].
  cbn [nltb nadd ER]. rewrite num_er. cbn [er_ltb er_add].
  destruct (Rltb a b && (Rltb 0 a && Rltb 0 b)) eqn:G; [|exists r; split; [reflexivity|exact Pr]].
  apply andb_prop in G. destruct G as [G1 G]. apply andb_prop in G. destruct G as [G2 _].
  unfold Rltb in G1, G2. destruct (Rlt_dec a b) as [G1'|]; [|discriminate]. destruct (Rlt_dec 0 a) as [G2'|]; [|discriminate].
  destruct (Hb a b) as (q & -> & Hq); [lra|]. cbn [nmul ER er_mul].
  destruct (Hr (h * q)) as (r' & a' & b' & -> & Pr').
  { assert (0 < - h * q) by (apply Rmult_lt_0_compat; lra).
    assert (- h * q <= - h * 1) by (apply Rmult_le_compat_l; lra). lra. }
  destruct (_ && _); eexists; (split; [reflexivity|assumption]).
Qed.

Lemma forward_best : forall a b, 0 < a < b ->
  exists q, er_pow (ndiv ER (Fin a) (Fin b)) (ratio ER 1 2) = Fin q /\ 0 < q <= 1.
Proof.
  intros a b Hab. rewrite ratio_er by lra. cbn [ndiv ER]. rewrite div_fin by lra.
  apply pow_step; [|lra]. apply quot_le. lra.
Qed.

Lemma forward_of : forall f x h (P : R -> Prop), 0 < h ->
  (forall k, 0 < k <= h -> exists f1 f2 f3 f4, f (Fin (x + k / 4)) = Fin f1 /\ f (Fin (x + k / 2)) = Fin f2 /\
     f (Fin (x + 3 / 4 * k)) = Fin f3 /\ f (Fin (x + k)) = Fin f4 /\ P (forward_value f1 f2 f3 f4 k)) ->
  exists r, gsl_forward ER er_pow (Fin h) f (Fin x) = Fin r /\ P r.
Proof.
  intros f x h P Hh H. unfold gsl_forward. apply better_fin; [exact Hh|exact forward_best|].
  intros k Hk. destruct (H k Hk) as (f1 & f2 & f3 & f4 & E1 & E2 & E3 & E4 & Pk).
  destruct (forward_rule f x k f1 f2 f3 f4) as (a & b & E); try assumption; [lra|].
  eexists. exists a, b. split; [exact E|exact Pk].
Qed.

Lemma backward_of : forall f x h (P : R -> Prop), 0 < h ->
  (forall k, - h <= k < 0 -> exists f1 f2 f3 f4, f (Fin (x + k / 4)) = Fin f1 /\ f (Fin (x + k / 2)) = Fin f2 /\
     f (Fin (x + 3 / 4 * k)) = Fin f3 /\ f (Fin (x + k)) = Fin f4 /\ P (forward_value f1 f2 f3 f4 k)) ->
  exists r, gsl_backward ER er_pow (Fin h) f (Fin x) = Fin r /\ P r.
Proof.
  intros f x h P Hh H. unfold gsl_backward, gsl_forward. rewrite num_er. cbn [nsub ER]. rewrite sub_fin.
  apply better_fin_neg; [lra|exact forward_best|].
  intros k Hk. destruct (H k) as (f1 & f2 & f3 & f4 & E1 & E2 & E3 & E4 & Pk); [lra|].
  destruct (forward_rule f x k f1 f2 f3 f4) as (a & b & E); try assumption; [lra|].
  eexists. exists a, b. split; [exact E|exact Pk].
Qed.

Lemma forward_undefined : forall f x h, 0 < h ->
  f (Fin (x + h / 4)) = NaN \/ f (Fin (x + h / 2)) = NaN \/ f (Fin (x + 3 / 4 * h)) = NaN \/ f (Fin (x + h)) = NaN ->
  gsl_forward ER er_pow (Fin h) f (Fin x) = NaN.
Proof.
  intros f x h Hh H. unfold gsl_forward, better. destruct (forward_nan f x h) as [a ->]; [lra|exact H|].
  replace (nltb ER a NaN) with false by (destruct a; reflexivity). reflexivity.
Qed.

(** ** [DerivativeAt] *)
Lemma slope_central : forall h f x r, gsl_central ER er_pow h f x = Fin r -> slope (gsl_derivs h) f x = Fin r.
Proof. intros h f x r E. unfold slope. cbn [central gsl_derivs]. rewrite E. reflexivity. Qed.

Lemma slope_forward : forall h f x r, gsl_central ER er_pow h f x = NaN -> gsl_forward ER er_pow h f x = Fin r ->
  slope (gsl_derivs h) f x = Fin r.
Proof. intros h f x r E E'. unfold slope. cbn [central forward gsl_derivs]. rewrite E. cbn [er_isnan]. rewrite E'. reflexivity. Qed.

Lemma slope_backward : forall h f x r, gsl_central ER er_pow h f x = NaN -> gsl_forward ER er_pow h f x = NaN ->
  gsl_backward ER er_pow h f x = Fin r -> slope (gsl_derivs h) f x = Fin r.
Proof. intros h f x r E E' E''. unfold slope. cbn [central forward backward gsl_derivs]. rewrite E. cbn [er_isnan]. rewrite E'. cbn [er_isnan]. exact E''. Qed.

Lemma slope_at : forall h f x, derivative_at ER er_pow h f x = slope (gsl_derivs h) f x.
Proof. reflexivity. Qed.

(** ** Polynomials *)
Lemma slope_quartic : forall f x h a0 a1 a2 a3 a4, 0 < h -> around f x h (quartic a0 a1 a2 a3 a4) ->
  derivative_at ER er_pow (Fin h) f (Fin x) = Fin a1.
Proof.
  intros f x h a0 a1 a2 a3 a4 Hh H. rewrite slope_at.
  destruct (central_of f x h (fun r => r = a1)) as (r & E & ->); [exact Hh| |apply slope_central; exact E].
  intros k Hk. do 4 eexists. unfold Rminus.
  repeat (split; [apply H; lra|]). unfold central_value, quartic. field. lra.
Qed.

Lemma slope_kink : forall f x h y a b, 0 < h -> f (Fin x) = Fin y ->
  leftwards f x h (fun t => y + a * t) -> rightwards f x h (fun t => y + b * t) ->
  derivative_at ER er_pow (Fin h) f (Fin x) = Fin ((a + b) / 2).
Proof.
  intros f x h y a b Hh _ Hl Hr. rewrite slope_at.
  destruct (central_of f x h (fun r => r = (a + b) / 2)) as (r & E & ->); [exact Hh| |apply slope_central; exact E].
  intros k Hk. do 4 eexists. unfold Rminus.
  split; [apply Hl; lra|]. split; [apply Hr; lra|]. split; [apply Hl; lra|]. split; [apply Hr; lra|].
  unfold central_value. field. lra.
Qed.

Lemma slope_left_edge : forall f x h a0 a1 a2 a3, 0 < h ->
  (f (Fin (x - h)) = NaN \/ f (Fin (x - h / 2)) = NaN) -> rightwards f x h (quartic a0 a1 a2 a3 0) ->
  derivative_at ER er_pow (Fin h) f (Fin x) = Fin a1.
Proof.
  intros f x h a0 a1 a2 a3 Hh Hn Hr. rewrite slope_at.
  destruct (forward_of f x h (fun r => r = a1)) as (r & E & ->); [exact Hh| |].
  - intros k Hk. do 4 eexists. repeat (split; [apply Hr; lra|]). unfold forward_value, quartic. field. lra.
  - apply slope_forward; [|exact E]. apply central_undefined; [exact Hh|tauto].
Qed.

Lemma slope_right_edge : forall f x h a0 a1 a2 a3, 0 < h ->
  f (Fin (x + h)) = NaN \/ f (Fin (x + h / 2)) = NaN -> leftwards f x h (quartic a0 a1 a2 a3 0) ->
  derivative_at ER er_pow (Fin h) f (Fin x) = Fin a1.
Proof.
  intros f x h a0 a1 a2 a3 Hh Hn Hr. rewrite slope_at.
  destruct (backward_of f x h (fun r => r = a1)) as (r & E & ->); [exact Hh| |].
  - intros k Hk. do 4 eexists. repeat (split; [apply Hr; lra|]). unfold forward_value, quartic. field. lra.
  - apply slope_backward; [| |exact E].
    + apply central_undefined; [exact Hh|tauto].
    + apply forward_undefined; [exact Hh|tauto].
Qed.

Lemma edp_cubic : forall f x h a0 a1 a2 a3, 0 < h -> rightwards f x h (quartic a0 a1 a2 a3 0) ->
  edp_derivative (Fin h) f (Fin x) = Fin a1.
Proof.
  intros f x h a0 a1 a2 a3 Hh Hr.
  destruct (forward_of f x h (fun r => r = a1)) as (r & E & ->); [exact Hh| |exact E].
  intros k Hk. do 4 eexists. repeat (split; [apply Hr; lra|]). unfold forward_value, quartic. field. lra.
Qed.

(** ** Curves that are not steep *)
Lemma slope_bounded : forall f x h g L, 0 < h -> around f x h g ->
  (forall s t, - h <= s <= h -> - h <= t <= h -> Rabs (g s - g t) <= L * Rabs (s - t)) ->
  exists r, derivative_at ER er_pow (Fin h) f (Fin x) = Fin r /\ Rabs r <= 5 / 3 * L.
Proof.
  intros f x h g L Hh H HL.
  destruct (central_of f x h (fun r => Rabs r <= 5 / 3 * L)) as (r & E & B); [exact Hh| |].
  - intros k Hk. do 4 eexists. unfold Rminus. repeat (split; [apply H; lra|]).
    assert (B1 : Rabs (g k - g (- k)) <= L * (2 * k)).
    { replace (2 * k) with (Rabs (k - - k)); [apply HL; lra|]. rewrite Rabs_pos_eq; lra. }
    assert (B2 : Rabs (g (k / 2) - g (- (k / 2))) <= L * k).
    { replace k with (Rabs (k / 2 - - (k / 2))) at 3; [apply HL; lra|]. rewrite Rabs_pos_eq; lra. }
    unfold central_value. apply Rabs_le_between in B1. apply Rabs_le_between in B2.
    unfold Rdiv at 1. rewrite Rabs_mult, (Rabs_pos_eq (/ k)) by (left; apply Rinv_0_lt_compat; lra).
    apply (Rmult_le_reg_r k); [lra|]. rewrite Rmult_assoc, Rinv_l by lra. rewrite Rmult_1_r.
    apply Rabs_le_between. lra.
  - exists r. split; [|exact B]. rewrite slope_at. apply slope_central. exact E.
Qed.

(** ** Smooth curves *)
Lemma taylor5_right : forall (q : R -> R) s M, 0 < s ->
  (forall u, 0 <= u <= s -> forall k, (k <= 5)%nat -> ex_derive_n q k u) ->
  (forall u, 0 < u < s -> Rabs (Derive_n q 5 u) <= M) ->
  Rabs (q s - quartic (q 0) (Derive q 0) (Derive_n q 2 0 / 2) (Derive_n q 3 0 / 6) (Derive_n q 4 0 / 24) s) <= M * s ^ 5 / 120.
Proof.
  intros q s M Hs Hq HB. destruct (Taylor_Lagrange q 4 0 s) as (z & Hz & Ez); [lra| |].
  - intros u Hu k Hk. apply Hq; [lra|lia].
  - rewrite Ez. cbn [sum_f_R0].
    replace (INR (fact 0)) with 1 by (cbn; ring). replace (INR (fact 1)) with 1 by (cbn; ring).
    replace (INR (fact 2)) with 2 by (cbn; ring). replace (INR (fact 3)) with 6 by (cbn; ring).
    replace (INR (fact 4)) with 24 by (cbn; ring). replace (INR (fact 5)) with 120 by (cbn; ring).
    change (Derive_n q 0 0) with (q 0). change (Derive_n q 1 0) with (Derive q 0).
    replace (s - 0) with s by ring. unfold quartic.
    match goal with |- Rabs ?e <= _ => replace e with (s ^ 5 / 120 * Derive_n q 5 z) by field end.
    rewrite Rabs_mult, (Rabs_pos_eq (s ^ 5 / 120)).
    + replace (M * s ^ 5 / 120) with (s ^ 5 / 120 * M) by field. apply Rmult_le_compat_l; [|apply HB; lra].
      apply Rmult_le_pos; [apply pow_le; lra|lra].
    + apply Rmult_le_pos; [apply pow_le; lra|lra].
Qed.

Lemma taylor5 : forall (g : R -> R) h d M t, 0 < h < d -> - h <= t <= h -> t <> 0 ->
  (forall u, - d < u < d -> forall k, (k <= 5)%nat -> ex_derive_n g k u) ->
  (forall u, - h < u < h -> Rabs (Derive_n g 5 u) <= M) ->
  Rabs (g t - quartic (g 0) (Derive g 0) (Derive_n g 2 0 / 2) (Derive_n g 3 0 / 6) (Derive_n g 4 0 / 24) t)
    <= M * Rabs t ^ 5 / 120.
Proof.
  intros g h d M t Hh Ht N Hd HM.
  destruct (Rlt_dec 0 t) as [P|P].
  - rewrite (Rabs_pos_eq t) by lra. apply taylor5_right; [lra| |].
    + intros u Hu. apply Hd. lra.
    + intros u Hu. apply HM. lra.
  - assert (L : forall u, - d < - u < d -> forall n, (n <= 5)%nat -> locally (- u) (fun y : R_UniformSpace =>
        forall k, (k <= n)%nat -> ex_derive_n g k y)).
    { intros u Hu n Hn. assert (E : 0 < Rmin (d - - u) (- u - - d)) by (apply Rmin_pos; lra).
      exists (mkposreal _ E). intros y Hy k Hk. apply Hd; [|lia].
      assert (B : Rabs (y - - u) < Rmin (d - - u) (- u - - d)) by exact Hy. apply Rabs_lt_between in B.
      pose proof (Rmin_l (d - - u) (- u - - d)). pose proof (Rmin_r (d - - u) (- u - - d)). lra. }
    pose proof (taylor5_right (fun y => g (- y)) (- t) M) as T.
    assert (E0 : forall n, (n <= 5)%nat -> Derive_n (fun y => g (- y)) n 0 = (-1) ^ n * Derive_n g n 0).
    { intros n Hn. rewrite Derive_n_comp_opp; [rewrite Ropp_0; reflexivity|]. apply L; [lra|exact Hn]. }
    change (Derive (fun y => g (- y)) 0) with (Derive_n (fun y => g (- y)) 1 0) in T.
    rewrite !E0 in T by lia. rewrite Ropp_0, Ropp_involutive in T.
    rewrite (Rabs_left1 t) by lra.
    replace (quartic (g 0) (Derive g 0) (Derive_n g 2 0 / 2) (Derive_n g 3 0 / 6) (Derive_n g 4 0 / 24) t)
      with (quartic (g 0) ((-1) ^ 1 * Derive_n g 1 0) ((-1) ^ 2 * Derive_n g 2 0 / 2) ((-1) ^ 3 * Derive_n g 3 0 / 6)
             ((-1) ^ 4 * Derive_n g 4 0 / 24) (- t)).
    + apply T; [lra| |].
      * intros u Hu k Hk. apply ex_derive_n_comp_opp. apply L; [lra|exact Hk].
      * intros u Hu. rewrite Derive_n_comp_opp by (apply L; [lra|lia]).
        replace ((-1) ^ 5) with (-1) by ring. replace (-1 * Derive_n g 5 (- u)) with (- Derive_n g 5 (- u)) by ring.
        rewrite Rabs_Ropp. apply HM. lra.
    + change (Derive_n g 1 0) with (Derive g 0). unfold quartic. field.
Qed.

Lemma slope_smooth : forall f x h d g M, 0 < h < d -> around f x h g ->
  (forall u, - d < u < d -> forall k, (k <= 5)%nat -> ex_derive_n g k u) ->
  (forall u, - h < u < h -> Rabs (Derive_n g 5 u) <= M) ->
  exists r, derivative_at ER er_pow (Fin h) f (Fin x) = Fin r /\ Rabs (r - Derive g 0) <= M * h ^ 4 / 288.
Proof.
  intros f x h d g M Hh H Hd HM.
  assert (M0 : 0 <= M) by (apply Rle_trans with (Rabs (Derive_n g 5 0)); [apply Rabs_pos|apply HM; lra]).
  destruct (central_of f x h (fun r => Rabs (r - Derive g 0) <= M * h ^ 4 / 288)) as (r & E & B); [lra| |].
  - intros k Hk. do 4 eexists. unfold Rminus. repeat (split; [apply H; lra|]). fold (Rminus (central_value (g (- k)) (g k) (g (- (k / 2))) (g (k / 2)) k) (Derive g 0)).
    set (q := quartic (g 0) (Derive g 0) (Derive_n g 2 0 / 2) (Derive_n g 3 0 / 6) (Derive_n g 4 0 / 24)).
    assert (T : forall t, - h <= t <= h -> t <> 0 -> Rabs (g t - q t) <= M * Rabs t ^ 5 / 120).
    { intros t Ht N. apply taylor5 with h d; assumption. }
    pose proof (T k ltac:(lra) ltac:(lra)) as T1. pose proof (T (- k) ltac:(lra) ltac:(lra)) as T2.
    pose proof (T (k / 2) ltac:(lra) ltac:(lra)) as T3. pose proof (T (- (k / 2)) ltac:(lra) ltac:(lra)) as T4.
    rewrite Rabs_Ropp in T2, T4. rewrite (Rabs_pos_eq k) in T1, T2 by lra. rewrite (Rabs_pos_eq (k / 2)) in T3, T4 by lra.
    apply Rle_trans with (M * k ^ 4 / 288).
    + replace (central_value (g (- k)) (g k) (g (- (k / 2))) (g (k / 2)) k - Derive g 0)
        with ((4 / 3 * ((g (k / 2) - q (k / 2)) - (g (- (k / 2)) - q (- (k / 2))))
               - 1 / 6 * ((g k - q k) - (g (- k) - q (- k)))) / k) by (unfold central_value, q, quartic; field; lra).
      replace ((k / 2) ^ 5) with (k ^ 5 / 32) in T3, T4 by field.
      set (e1 := g k - q k) in *. set (e2 := g (- k) - q (- k)) in *. set (e3 := g (k / 2) - q (k / 2)) in *.
      set (e4 := g (- (k / 2)) - q (- (k / 2))) in *. clearbody e1 e2 e3 e4.
      unfold Rdiv at 1. rewrite Rabs_mult, (Rabs_pos_eq (/ k)) by (left; apply Rinv_0_lt_compat; lra).
      apply (Rmult_le_reg_r k); [lra|]. rewrite Rmult_assoc, Rinv_l by lra. rewrite Rmult_1_r.
      replace (M * k ^ 4 / 288 * k) with (M * k ^ 5 / 288) by field.
      set (K := M * k ^ 5) in *. replace (M * (k ^ 5 / 32) / 120) with (K / 3840) in T3, T4 by (unfold K; field). clearbody K.
      apply Rabs_le_between in T1. apply Rabs_le_between in T2. apply Rabs_le_between in T3. apply Rabs_le_between in T4.
      apply Rabs_le_between. lra.
    + apply Rmult_le_compat_r; [lra|]. apply Rmult_le_compat_l; [exact M0|]. apply pow_incr. lra.
  - exists r. split; [|exact B]. rewrite slope_at. apply slope_central. exact E.
Qed.
