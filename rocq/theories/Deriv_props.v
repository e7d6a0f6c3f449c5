(** * Properties of slopes

    C85 (the slopes used in figures are the derivatives of the curves). *)
From Coquelicot Require Import Coquelicot.
From Coq Require Import Reals List Bool ZArith Lra.
From Coq Require Import Floats.SpecFloat.
From Verif Require Import Num ER ERmath Functions Functions_spec Group Annual_spec Double_spec
  Deriv Deriv_spec Deriv_proofs Deriv_proofs2 Deriv_proofs3.
Import ListNotations.
Local Open Scope R_scope.

(** ** C85 *)

(** Full statement: the slope computed for a curve at an argument is the derivative of the
    curve there.  False: in double precision the step does not change an argument far from
    zero, and the slope of [y = x] there is zero. *)
Theorem C85_slope_refuted : exists x : F64, double x /\ finite x /\
  forall power, derivative_at F64 power step64 (fun t => t) x = S754_zero false.
Proof. exact refute_slope. Qed.
Print Assumptions C85_slope_refuted.

(** At every argument of 2^28 or more, every curve that has a finite value there has slope
    zero. *)
Theorem C85_far_fails : forall power f (x : F64), double x -> finite x ->
  nleb F64 (nofZ F64 268435456) (nabs F64 x) = true -> finite (f x) ->
  derivative_at F64 power step64 f x = S754_zero false.
Proof. exact far_flat. Qed.
Print Assumptions C85_far_fails.
Example C85_far_case : let x := nofZ F64 300000000 in
  double x /\ finite x /\ nleb F64 (nofZ F64 268435456) (nabs F64 x) = true /\ finite (nmul F64 x x).
Proof. vm_compute. auto. Qed.

(** The rest is without rounding.  The slopes of figures (C79) are these. *)
Theorem C85_figures : forall h f x d,
  first_number (central (gsl_derivs h) f x) (forward (gsl_derivs h) f x) (backward (gsl_derivs h) f x) d ->
  d = derivative_at ER er_pow h f x.
Proof. exact slope_figures. Qed.
Print Assumptions C85_figures.

(** Where the curve is a polynomial of degree four or less, the slope is the derivative. *)
Theorem C85_polynomial_partial : forall f x h a0 a1 a2 a3 a4, 0 < h -> around f x h (quartic a0 a1 a2 a3 a4) ->
  derivative_at ER er_pow (Fin h) f (Fin x) = Fin a1.
Proof. exact slope_quartic. Qed.
Print Assumptions C85_polynomial_partial.
Example C85_polynomial_case : derivative_at ER er_pow (Fin (/ 100)) (fun x => er_mul x x) (Fin 3) = Fin 6.
Proof.
  apply C85_polynomial_partial with (a0 := 9) (a2 := 1) (a3 := 0) (a4 := 0); [lra|].
  intros t Ht. cbn. f_equal. unfold quartic. ring.
Qed.

(** Where it has five derivatives, the slope is the derivative up to a 288th of the fourth
    power of the step times a bound of the fifth derivative. *)
Theorem C85_smooth_partial : forall f x h d g M, 0 < h < d -> around f x h g ->
  (forall u, - d < u < d -> forall k, (k <= 5)%nat -> ex_derive_n g k u) ->
  (forall u, - h < u < h -> Rabs (Derive_n g 5 u) <= M) ->
  exists r, derivative_at ER er_pow (Fin h) f (Fin x) = Fin r /\ Rabs (r - Derive g 0) <= M * h ^ 4 / 288.
Proof. exact slope_smooth. Qed.
Print Assumptions C85_smooth_partial.
Example C85_smooth_case : exists r,
  derivative_at ER er_pow (Fin (/ 10)) (fun x => match x with Fin a => Fin (exp a) | y => y end) (Fin 0) = Fin r /\
  Rabs (r - 1) <= 1 / 900000.
Proof. exact smooth_case. Qed.

(** So for power laws. *)
Theorem C85_power_partial : forall a b x h M, 0 < h < x ->
  (forall u, - h < u < h -> Rpower (x + u) (b - 5) <= M) ->
  exists r, derivative_at ER er_pow (Fin h) (power_law (Fin a) (Fin b)) (Fin x) = Fin r /\
    Rabs (r - a * b * Rpower x (b - 1)) <= Rabs (a * b * (b - 1) * (b - 2) * (b - 3) * (b - 4)) * M * h ^ 4 / 288.
Proof. exact slope_power. Qed.
Print Assumptions C85_power_partial.
Example C85_power_case : exists r,
  derivative_at ER er_pow (Fin (/ 10)) (power_law (Fin 1) (Fin (-1))) (Fin 2) = Fin r /\ Rabs (r - - (1 / 4)) <= 1 / 20000.
Proof.
  destruct (C85_power_partial 1 (-1) 2 (/ 10) 1) as (r & E & B).
  - lra.
  - intros u Hu. replace (-1 - 5) with (- (6)) by ring. rewrite Rpower_Ropp.
    rewrite <- Rinv_1. apply Rinv_le_contravar; [lra|].
    rewrite <- (Rpower_O (2 + u)) by lra. apply Rle_Rpower; lra.
  - exists r. split; [exact E|]. replace (1 * -1 * Rpower 2 (-1 - 1)) with (- (1 / 4)) in B.
    + refine (Rle_trans _ _ _ B _).
      replace (1 * -1 * (-1 - 1) * (-1 - 2) * (-1 - 3) * (-1 - 4)) with (- (120)) by ring.
      rewrite Rabs_left by lra. lra.
    + replace (-1 - 1) with (- INR 2) by (cbn; ring). rewrite Rpower_Ropp, Rpower_pow by lra. cbn. field.
Qed.

(** A curve interpolated from a table has, inside each segment, the segment's slope; at
    given points the mean of the slopes on both sides, which is zero outside the table. *)
Theorem C85_table_partial : forall us vs f h, tabled us vs -> follows f us vs -> 0 < h ->
  (forall i, (S i < length us)%nat -> h <= nth (S i) us 0 - nth i us 0) ->
  let d := derivative_at ER er_pow (Fin h) f in
  (forall i x, (S i < length us)%nat -> nth i us 0 + h <= x <= nth (S i) us 0 - h -> d (Fin x) = Fin (gradient us vs i)) /\
  (forall i, (S (S i) < length us)%nat -> d (Fin (nth (S i) us 0)) = Fin ((gradient us vs i + gradient us vs (S i)) / 2)) /\
  d (Fin (nth 0 us 0)) = Fin (gradient us vs 0 / 2) /\
  d (Fin (last us 0)) = Fin (gradient us vs (length us - 2) / 2) /\
  (forall x, x + h <= nth 0 us 0 \/ last us 0 <= x - h -> d (Fin x) = Fin 0).
Proof. exact slope_table. Qed.
Print Assumptions C85_table_partial.
Example C85_table_case : exists t, new_linear (map Fin [0; 1; 3]) (map Fin [0; 2; 3]) = Some t /\
  derivative_at ER er_pow (Fin (/ 100)) (fun x => match linear t x 0 with Some (y, _) => y | None => NaN end) (Fin 1) = Fin (5 / 4).
Proof. exact table_case. Qed.

(** Where the curve has a corner, the slope is the mean of the two slopes. *)
Theorem C85_corner_partial : forall f x h y a b, 0 < h -> f (Fin x) = Fin y ->
  leftwards f x h (fun t => y + a * t) -> rightwards f x h (fun t => y + b * t) ->
  derivative_at ER er_pow (Fin h) f (Fin x) = Fin ((a + b) / 2).
Proof. exact slope_kink. Qed.
Print Assumptions C85_corner_partial.
Example C85_corner_case : derivative_at ER er_pow (Fin (/ 100)) er_abs (Fin 0) = Fin 0.
Proof.
  replace 0 with ((-1 + 1) / 2) at 2 by field. apply C85_corner_partial with (y := 0); [lra| | |].
  - cbn. rewrite Rabs_R0. reflexivity.
  - intros t Ht. cbn. f_equal. rewrite Rabs_left by lra. ring.
  - intros t Ht. cbn. f_equal. rewrite Rabs_pos_eq by lra. ring.
Qed.

(** At the end of the range in which a curve has values, the slope is that towards the
    inside: exact for polynomials of degree three. *)
Theorem C85_left_end_partial : forall f x h a0 a1 a2 a3, 0 < h ->
  (f (Fin (x - h)) = NaN \/ f (Fin (x - h / 2)) = NaN) -> rightwards f x h (quartic a0 a1 a2 a3 0) ->
  derivative_at ER er_pow (Fin h) f (Fin x) = Fin a1.
Proof. exact slope_left_edge. Qed.
Print Assumptions C85_left_end_partial.
Example C85_left_end_case :
  derivative_at ER er_pow (Fin (/ 100)) (fun x => if er_ltb x (Fin 0) then NaN else er_mul (Fin 3) x) (Fin 0) = Fin 3.
Proof.
  apply C85_left_end_partial with (a0 := 0) (a2 := 0) (a3 := 0); [lra| |].
  - left. cbn. unfold Rltb. destruct (Rlt_dec _ _); [reflexivity|lra].
  - intros t Ht. cbn. unfold Rltb. destruct (Rlt_dec _ _); [lra|]. cbn. f_equal. unfold quartic. ring.
Qed.

(** Likewise. *)
Theorem C85_right_end_partial : forall f x h a0 a1 a2 a3, 0 < h ->
  f (Fin (x + h)) = NaN \/ f (Fin (x + h / 2)) = NaN -> leftwards f x h (quartic a0 a1 a2 a3 0) ->
  derivative_at ER er_pow (Fin h) f (Fin x) = Fin a1.
Proof. exact slope_right_edge. Qed.
Print Assumptions C85_right_end_partial.
Example C85_right_end_case :
  derivative_at ER er_pow (Fin (/ 100)) (fun x => if er_ltb (Fin 0) x then NaN else er_mul (Fin 3) x) (Fin 0) = Fin 3.
Proof.
  apply C85_right_end_partial with (a0 := 0) (a2 := 0) (a3 := 0); [lra| |].
  - left. cbn. unfold Rltb. destruct (Rlt_dec _ _); [reflexivity|lra].
  - intros t Ht. cbn. unfold Rltb. destruct (Rlt_dec _ _); [lra|]. cbn. f_equal. unfold quartic. ring.
Qed.

(** The slope of a demand's annual rates is always taken to the right. *)
Theorem C85_demand_partial : forall f x h a0 a1 a2 a3, 0 < h -> rightwards f x h (quartic a0 a1 a2 a3 0) ->
  edp_derivative (Fin h) f (Fin x) = Fin a1.
Proof. exact edp_cubic. Qed.
Print Assumptions C85_demand_partial.
Example C85_demand_case : edp_derivative (Fin (/ 100)) er_abs (Fin 0) = Fin 1.
Proof.
  apply C85_demand_partial with (a0 := 0) (a2 := 0) (a3 := 0); [lra|].
  intros t Ht. cbn. f_equal. rewrite Rabs_pos_eq by lra. unfold quartic. ring.
Qed.

(** Whatever the curve, the slope is at most five thirds of the steepest slope between two
    of its points. *)
Theorem C85_bounded_partial : forall f x h g L, 0 < h -> around f x h g ->
  (forall s t, - h <= s <= h -> - h <= t <= h -> Rabs (g s - g t) <= L * Rabs (s - t)) ->
  exists r, derivative_at ER er_pow (Fin h) f (Fin x) = Fin r /\ Rabs r <= 5 / 3 * L.
Proof. exact slope_bounded. Qed.
Print Assumptions C85_bounded_partial.
Example C85_bounded_case : exists r, derivative_at ER er_pow (Fin (/ 100)) er_abs (Fin (/ 300)) = Fin r /\ Rabs r <= 5 / 3.
Proof.
  destruct (C85_bounded_partial er_abs (/ 300) (/ 100) (fun t => Rabs (/ 300 + t)) 1) as (r & E & B).
  - lra.
  - intros t Ht. reflexivity.
  - intros s t _ _. rewrite Rmult_1_l. replace (s - t) with (/ 300 + s - (/ 300 + t)) by ring. apply Rabs_triang_inv2.
  - exists r. split; [exact E|]. lra.
Qed.
