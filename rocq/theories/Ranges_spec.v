(** * What ranges should be *)
From Coq Require Import Reals List ZArith.
From Verif Require Import Num ER.
Import ListNotations.
Local Open Scope R_scope.

(** Strictly increasing, strictly decreasing. *)
Definition ascending (l : list R) : Prop := forall i j, (i < j < length l)%nat -> nth i l 0 < nth j l 0.
Definition descending (l : list R) : Prop := forall i j, (i < j < length l)%nat -> nth j l 0 < nth i l 0.

(** Exactly [n] values, the first [a] and the last [b]. *)
Definition from_to (a b : R) (n : Z) (l : list R) : Prop :=
  Z.of_nat (length l) = n /\ nth 0 l 0 = a /\ nth (length l - 1) l 0 = b.

(** Neighbours have the same difference. *)
Definition evenly (l : list R) : Prop := exists d, forall i, (S i < length l)%nat -> nth (S i) l 0 = nth i l 0 + d.

(** Neighbours have the same ratio. *)
Definition geometric (l : list R) : Prop := exists q, 0 < q /\ forall i, (S i < length l)%nat -> nth (S i) l 0 = nth i l 0 * q.

(** The values [a], [a + d], ... as long as they are at most [b]. *)
Definition steps_up_to (a d b : R) (l : list R) : Prop :=
  (forall i, (i < length l)%nat -> nth i l 0 = a + INR i * d /\ nth i l 0 <= b) /\ b < a + INR (length l) * d.

(** Each value is the previous one plus [d], whatever that means in the
    arithmetic. *)
Fixpoint chain (A : Num) (d i : A) (l : list A) : Prop :=
  match l with
  | [] => True
  | x :: r => x = i /\ chain A d (nadd A i d) r
  end.
