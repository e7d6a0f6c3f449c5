(** * What annual figures should be *)
From Coq Require Import Reals List Bool ZArith.
From Verif Require Import Num ER Maq.
Import ListNotations.
Local Open Scope R_scope.

(** [v] is the product of a figure and the absolute value of a slope; it is not a number
    if either is not. *)
Definition weighted (figure slope v : er) : Prop :=
  (forall a b, figure = Fin a -> slope = Fin b -> v = Fin (a * Rabs b)) /\
  (figure = NaN \/ slope = NaN -> v = NaN).

(** [v] is what the integration routine makes of an integrand which at each point [x]
    satisfies [integrand x]; [failed] stands for failure. *)
Definition accumulated (s : settings ER) (failed : er) (integrand : er -> er -> Prop) (v : er) : Prop :=
  exists F r, MAQ ER F (fuel_for ER s) s = Done r /\ (forall x, integrand x (F x)) /\
    v = if mr_successful r then mr_integral r else failed.

(** Derivative of [f] at [x]: the first of three candidates which is a number, the last
    failing that. *)
Definition first_number (a b c v : er) : Prop :=
  (a <> NaN -> v = a) /\ (a = NaN -> b <> NaN -> v = b) /\ (a = NaN -> b = NaN -> v = c).
