(** * What damage, loss and fate should report

    Independent of the model's functions, except for the getters of
    distributions. *)
From Coq Require Import Reals List ZArith.
From Verif Require Import ER ERmath Lognormal Lognormal_spec Damage.
Import ListNotations.
Local Open Scope R_scope.

(** The medians are known. *)
Definition known_medians (l : list lnd) : Prop := Forall (fun d => get_median_X d <> NaN) l.

(** The medians are strictly increasing. *)
Definition increasing_medians (l : list lnd) : Prop :=
  forall i j, (i < j < length l)%nat ->
    er_ltb (get_median_X (nth i l nodist)) (get_median_X (nth j l nodist)) = true.

(** The curve with log mean [m] and log standard deviation [s]. *)
Definition curve (c : R * R) : lnd := LND (Fin (fst c)) (Fin (snd c)).

(** All spreads are positive. *)
Definition spreads (c : list (R * R)) : Prop := Forall (fun c => 0 < snd c) c.

(** Later numbers are not larger. *)
Definition descending (l : list R) : Prop :=
  forall i j, (i <= j < length l)%nat -> nth j l 0 <= nth i l 0.

(** Probabilities. *)
Definition all_probabilities (l : list R) : Prop := Forall (fun p => 0 <= p <= 1) l.

(** The demand with logarithm [l] is at most as many standard deviations above
    the median of each later state as above that of an earlier one. *)
Definition in_order (l : R) (c : list (R * R)) : Prop :=
  forall i j, (i <= j < length c)%nat ->
    (l - fst (nth j c (0, 1))) / snd (nth j c (0, 1)) <= (l - fst (nth i c (0, 1))) / snd (nth i c (0, 1)).

(** All spreads are the same. *)
Definition one_spread (c : list (R * R)) : Prop :=
  forall a b, In a c -> In b c -> snd a = snd b.

(** The bi-level unit cost: [a] up to the count [lo], [b] from [hi], linear
    between. *)
Definition unit_cost (lo hi : Z) (a b : R) (n : Z) (m : R) : Prop :=
  ((n <= lo)%Z /\ m = a) \/ ((hi <= n)%Z /\ m = b) \/
  ((lo < n < hi)%Z /\ m * (IZR hi - IZR lo) = a * (IZR hi - IZR n) + b * (IZR n - IZR lo)).

(** Three numbers are the probabilities of three exhaustive and exclusive
    fates. *)
Definition fates (r d c : er) : Prop :=
  exists x y z, r = Fin x /\ d = Fin y /\ c = Fin z /\
    0 <= x <= 1 /\ 0 <= y <= 1 /\ 0 <= z <= 1 /\ x + y + z = 1.

(** The curves, if any, have a probability at [im]. *)
Definition defined_at (c : curves) (im : er) : Prop :=
  match collapse c with Some d => comparable d im | None => True end /\
  match demolition c with Some d => comparable d im | None => True end.
