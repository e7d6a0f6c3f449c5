(** * What groups and structures should report

    Independent of the model's functions, except for the getters of
    distributions. *)
From Coq Require Import Reals List Bool ZArith Permutation.
From Verif Require Import Num ER ERmath Maq Maq_spec Maq_ER_spec Lognormal Lognormal_spec.
Import ListNotations.
Local Open Scope R_scope.

(** [gs] are the classes of the members of [cs] with the same key: nothing lost,
    nothing duplicated, none empty, members in their original order. *)
Record grouped {A : Type} (key : A -> nat) (cs : list A) (gs : list (list A)) : Prop := {
  grouped_members : Permutation (concat gs) cs;
  grouped_nonempty : Forall (fun g => g <> []) gs;
  grouped_within : forall g c c', In g gs -> In c g -> In c' g -> key c = key c';
  grouped_between : forall l g l' g' l'' c c',
    gs = l ++ g :: l' ++ g' :: l'' -> In c g -> In c' g' -> key c <> key c';
  grouped_order : Forall (fun g => exists k, g = filter (fun c => Nat.eqb (key c) k) cs) gs
}.

(** A demand parameter exceeds [x] with probability [p x], which falls from 1 at 0
    to 0, and [d x] is its density at [x] > 0. *)
Record demand (p d : R -> R) : Prop := {
  demand_zero : p 0 = 1;
  demand_positive : forall x, 0 <= x -> 0 < p x;
  demand_density : forall x, 0 < x -> derivable_pt_lim p x (- d x) /\ 0 < d x;
  demand_tail : forall e, 0 < e -> exists x, 0 < x /\ p x < e
}.

(** The log standard deviation of a lognormal variable with mean [a] and variance
    [v]. *)
Definition log_sd (a v : R) : R := sqrt (ln (1 + v / (a * a))).

(** At all five points of each quarter of [u],[v] the integrand, after the
    substitution x = 1/t - 1, is zero. *)
Definition vanishes (f : er -> er) (uv : R * R) : Prop :=
  fst uv < snd uv /\
  forall i, (0 <= i <= 4)%Z -> image f (fst uv + IZR i * (snd uv - fst uv) / 4) = Fin 0.
