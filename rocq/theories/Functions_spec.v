(** * What functions should return

    Independent of the model's functions. *)
From Coq Require Import Reals List.
From Verif Require Import ER ERmath Lognormal Lognormal_spec Damage Functions.
Import ListNotations.
Local Open Scope R_scope.

(** Strictly increasing points. *)
Definition sorted (us : list R) : Prop := forall i j, (i < j < length us)%nat -> nth i us 0 < nth j us 0.

(** A table: at least two points, increasing, with a value each. *)
Definition tabled (us vs : list R) : Prop := (2 <= length us)%nat /\ length us = length vs /\ sorted us.

(** [(x, y)] is on the straight line between two neighbouring points. *)
Definition on_segment (us vs : list R) (x y : R) : Prop :=
  exists i, (S i < length us)%nat /\ nth i us 0 <= x <= nth (S i) us 0 /\
    (y - nth i vs 0) * (nth (S i) us 0 - nth i us 0) = (x - nth i us 0) * (nth (S i) vs 0 - nth i vs 0).

(** The nearest end value outside the table. *)
Definition beyond (us vs : list R) (x y : R) : Prop :=
  (x < hd 0 us /\ y = hd 0 vs) \/ (last us 0 < x /\ y = last vs 0).

(** Linear interpolation. *)
Definition interpolates (us vs : list R) (x y : R) : Prop := beyond us vs x y \/ on_segment us vs x y.

(** Log-log interpolation: between the logarithms. *)
Definition log_interpolates (us vs : list R) (x y : R) : Prop :=
  beyond us vs x y \/
  (hd 0 us <= x <= last us 0 /\ 0 < y /\ on_segment (map ln us) (map ln vs) (ln x) (ln y)).

(** All numbers are positive. *)
Definition positive (l : list R) : Prop := Forall (fun v => 0 < v) l.

(** The arguments are within the table. *)
Definition within (us : list R) (xs : list R) : Prop := Forall (fun x => hd 0 us <= x <= last us 0) xs.

(** [(x, y)] is on the straight line through some two neighbouring points, but
    perhaps not between them. *)
Definition on_line (us vs : list R) (x y : R) : Prop :=
  exists i, (S i < length us)%nat /\
    (y - nth i vs 0) * (nth (S i) us 0 - nth i us 0) = (x - nth i us 0) * (nth (S i) vs 0 - nth i vs 0).

(** Parameters that fit the type of function. *)
Definition suitable (t : function_type) (p : parameters) : Prop :=
  match t with
  | PLC => exists a b r, p = Numbers (a :: b :: r)
  | NLH => exists a b c r, p = Numbers (a :: b :: c :: r)
  | LIN => exists us vs r, p = Lists (map Fin us :: map Fin vs :: r) /\ tabled us vs
  | LOGLOG => exists us vs r, p = Lists (map Fin us :: map Fin vs :: r) /\ tabled us vs /\ positive us /\ positive vs
  end.
