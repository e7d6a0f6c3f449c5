(** * What slopes should be

    Independent of the model's functions. *)
From Coq Require Import Reals List.
From Verif Require Import ER Functions_spec.
Import ListNotations.
Local Open Scope R_scope.

(** Around [x], up to a distance [h] on either side, the curve [f] is [g], a function of the
    distance from [x]. *)
Definition around (f : er -> er) (x h : R) (g : R -> R) : Prop :=
  forall t, - h <= t <= h -> f (Fin (x + t)) = Fin (g t).
(** Likewise only to the right, or only to the left, [x] itself excluded. *)
Definition rightwards (f : er -> er) (x h : R) (g : R -> R) : Prop :=
  forall t, 0 < t <= h -> f (Fin (x + t)) = Fin (g t).
(** Likewise. *)
Definition leftwards (f : er -> er) (x h : R) (g : R -> R) : Prop :=
  forall t, - h <= t < 0 -> f (Fin (x + t)) = Fin (g t).

(** A polynomial of degree four. *)
Definition quartic (a0 a1 a2 a3 a4 t : R) : R := a0 + a1 * t + a2 * t ^ 2 + a3 * t ^ 3 + a4 * t ^ 4.

(** A curve that is the linear interpolation of a table. *)
Definition follows (f : er -> er) (us vs : list R) : Prop :=
  forall x, exists y, f (Fin x) = Fin y /\ interpolates us vs x y.

(** The slope of the [i]-th segment of a table. *)
Definition gradient (us vs : list R) (i : nat) : R :=
  (nth (S i) vs 0 - nth i vs 0) / (nth (S i) us 0 - nth i us 0).
