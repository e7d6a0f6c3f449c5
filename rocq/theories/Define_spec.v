(** * What definitions made from Python should do

    Independent of the model's functions, except for the getters of distributions. *)
From Coq Require Import Reals List ZArith.
From Verif Require Import ER ERmath Lognormal Lognormal_spec Damage.
Import ListNotations.
Local Open Scope R_scope.

(** Some state is not above the one before it, in the mean of the log. *)
Definition out_of_order (l : list lnd) : Prop :=
  exists i, (S i < length l)%nat /\
    er_leb (get_mu_lnX (nth (S i) l nodist)) (get_mu_lnX (nth i l nodist)) = true.

(** The number of damage states a loss function is for. *)
Definition states_of (f : lossfn) : nat :=
  match f with BaseLoss => 0 | SimpleLoss l => length l | BiLevelLoss l => length l end.

(** The differences of counts a bi-level loss function takes are [int]s. *)
Definition small_counts (f : lossfn) (n : Z) : Prop :=
  match f with
  | BiLevelLoss l => Forall (fun b => (count_min b < n < count_max b)%Z ->
      (n - count_min b <= 2147483647)%Z /\ (count_max b - count_min b <= 2147483647)%Z) l
  | _ => True
  end.

(** [d] is lognormal with the location and spread given. *)
Definition described (mt : mu_type) (st : sigma_type) (given : R * R) (d : lnd) : Prop :=
  location mt d = Fin (fst given) /\ spread st d = Fin (snd given) /\ consistent d.

(** Numbers for which there is such a distribution. *)
Definition proper_pair (mt : mu_type) (given : R * R) : Prop :=
  (mt = MEAN_LN_X \/ 0 < fst given) /\ 0 <= snd given.

(** A pair of numbers as extended reals. *)
Definition fin2 (p : R * R) : er * er := (Fin (fst p), Fin (snd p)).
