(** * Properties of integration: accuracy

    C80 (how far a successful result is from the integral). *)
From Coq Require Import ZArith Bool.
From Coquelicot Require Import Coquelicot.
From Coq Require Import Reals List Lra Lia.
From Verif Require Import Num ER Maq Maq_spec Maq_ER_spec Group Maq_accuracy_proofs.
Import ListNotations.
Local Open Scope R_scope.

(** ** C80 *)

(** Full statement: a successful result is within the tolerance of the integral over
    the range that was found.  False: with the default settings there are smooth
    functions, nowhere below 1 after the substitution, whose result is reported as
    successful and is further from the integral than any number named in advance. *)
Theorem C80_tolerance_refuted : forall E, exists (f : er -> er) (p : R -> R) r v i,
  MAQ ER f (fuel_for ER (default_settings ER)) (default_settings ER) = Done r /\
  mr_successful r = true /\ mr_range r = Some (Fin 0, Fin 1) /\ mr_integral r = Fin v /\
  (forall t, 0 <= t <= 1 -> image f t = Fin (p t) /\ 1 <= p t /\ continuous p t) /\
  is_integral p 0 1 i /\ E < Rabs (v - i).
Proof. exact tolerance_no_bound. Qed.
Print Assumptions C80_tolerance_refuted.

(** What holds whatever the tolerance: the result is off by at most twice the length
    of the range times the distance of the function, after the substitution, from a
    polynomial of degree five. *)
Theorem C80_polynomial_partial : forall (f : er -> er) (s : settings ER) fuel r a b (p : R -> R) cs e i,
  limits_ok s -> 0 <= a < b -> (length cs <= 6)%nat ->
  (forall t, a <= t <= b -> image f t = Fin (p t)) ->
  (forall t, a <= t <= b -> Rabs (p t - poly cs t) <= e) ->
  is_integral p a b i ->
  MAQ ER f fuel s = Done r -> mr_range r = Some (Fin a, Fin b) -> mr_successful r = true ->
  exists v, mr_integral r = Fin v /\ Rabs (v - i) <= 2 * e * (b - a).
Proof. exact accuracy. Qed.
Print Assumptions C80_polynomial_partial.

(** And by at most M (b - a)^7 / 360 if its sixth derivative is at most M. *)
Theorem C80_smooth_partial : forall (f : er -> er) (s : settings ER) fuel r a b (p : R -> R) M i,
  limits_ok s -> 0 <= a < b ->
  (forall t, a <= t <= b -> image f t = Fin (p t)) ->
  (forall t, a <= t <= b -> forall k, (k <= 6)%nat -> ex_derive_n p k t) ->
  (forall t, a < t < b -> Rabs (Derive_n p 6 t) <= M) ->
  is_integral p a b i ->
  MAQ ER f fuel s = Done r -> mr_range r = Some (Fin a, Fin b) -> mr_successful r = true ->
  exists v, mr_integral r = Fin v /\ Rabs (v - i) <= M * (b - a) ^ 7 / 360.
Proof. exact accuracy_smooth. Qed.
Print Assumptions C80_smooth_partial.

(** The integral after the substitution is the integral of the caller's function over
    the corresponding range. *)
Theorem C80_substitution_partial : forall (g : R -> R) a b i, 0 < a < b ->
  (forall x, 1 / b - 1 <= x <= 1 / a - 1 -> continuous g x) ->
  is_integral g (1 / b - 1) (1 / a - 1) i ->
  is_integral (fun t => g (1 / t - 1) / (t * t)) a b i.
Proof. exact substitution. Qed.
Print Assumptions C80_substitution_partial.

(** A polynomial of degree ten meets the hypotheses of the second and third theorem. *)
Example C80_case : exists f p e M r i, limits_ok (default_settings ER) /\
  (forall t, 0 <= t <= 1 -> image f t = Fin (p t)) /\
  (forall t, 0 <= t <= 1 -> Rabs (p t - poly [1] t) <= e) /\
  (forall t k, ex_derive_n p k t) /\ (forall t, 0 < t < 1 -> Rabs (Derive_n p 6 t) <= M) /\
  is_integral p 0 1 i /\
  MAQ ER f (fuel_for ER (default_settings ER)) (default_settings ER) = Done r /\
  mr_range r = Some (Fin 0, Fin 1) /\ mr_successful r = true /\ mr_integral r <> Fin i.
Proof.
  destruct (hider_run 1) as (r & E & S & Rg & I).
  destruct (poly_bounded (Nat.iter 6 dpoly (hidden 1))) as [M HM].
  exists (hider 1), (poly (hidden 1)), 1, M, r, (1 + 1 * (5 / 1419264)).
  refine (conj _ (conj (hider_image 1) (conj bumps_small (conj _ (conj _ (conj (hidden_integral 1) (conj E (conj Rg (conj S _))))))))).
  - split; split; vm_compute; discriminate || reflexivity.
  - intros t k. apply poly_derive_n.
  - intros t Ht. rewrite (proj1 (poly_derive_n 6 _ t)). apply HM. lra.
  - rewrite I. intros Q. injection Q. lra.
Qed.
