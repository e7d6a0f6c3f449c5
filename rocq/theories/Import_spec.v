(** * What imported functions should give

    Independent of the model's functions.  A file is seen as a list of intensities,
    each with the responses of a number of analyses, where zero stands for a collapse. *)
From Coq Require Import Reals List.
From Verif Require Import Num ER Functions_spec Lognormal_spec.
Import ListNotations.
Local Open Scope R_scope.

(** A row: an intensity and its responses. *)
Notation row := (R * list R)%type.

(** The rows as they are in the file. *)
Definition as_file (data : list row) : list (list er) := map (fun r => Fin (fst r) :: map Fin (snd r)) data.

(** The responses of analyses without collapse. *)
Definition survived (ys : list R) : list R := filter (fun y => negb (Reqb y 0)) ys.

(** Average of a list of numbers. *)
Definition average (l : list R) (m : R) : Prop := total l = m * INR (length l).

(** Sample standard deviation. *)
Definition deviation (l : list R) (s : R) : Prop :=
  exists m, average l m /\ 0 <= s /\
    s * s * (INR (length l) - 1) = total (map (fun v => (v - m) * (v - m)) l).

(** The logarithms of the responses have average [m] and standard deviation [s]. *)
Definition fits (ys : list R) (m s : R) : Prop :=
  average (map ln (survived ys)) m /\ deviation (map ln (survived ys)) s.

(** A file with rows of the same length and no negative response. *)
Definition rectangular (data : list row) : Prop :=
  (2 <= length data)%nat /\ exists n, (0 < n)%nat /\ Forall (fun r => length (snd r) = n /\ Forall (fun y => 0 <= y) (snd r)) data.

(** Intensities in increasing order, above zero. *)
Definition ordered (data : list row) : Prop := sorted (0 :: map fst data).

(** Each intensity has at least two analyses without collapse. *)
Definition enough (data : list row) : Prop := Forall (fun r => (2 <= length (survived (snd r)))%nat) data.

(** Files with the same intensities and the same responses, but for collapses. *)
Definition same_but_collapses (a b : list row) : Prop :=
  map fst a = map fst b /\ map (fun r => survived (snd r)) a = map (fun r => survived (snd r)) b.

(** The fraction of analyses that end in collapse. *)
Definition collapse_fraction (ys : list R) : R := 1 - INR (length (survived ys)) / INR (length ys).
