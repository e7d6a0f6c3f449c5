(** * Specifications over the reals used in the statements about integration *)
From Coq Require Import ZArith Reals List.
From Coquelicot Require Import Coquelicot.
From Verif Require Import Num ER Maq.
Import ListNotations.
Local Open Scope R_scope.

(** The integrand after the substitution x = 1/t - 1 (dx = -dt/t^2); at t = 0, i.e.
    x = infinity, the code leaves the Jacobian out. *)
Definition image (f : er -> er) (t : R) : er :=
  if Req_EM_T t 0 then f PInf else er_div (f (Fin (1 / t - 1))) (Fin (t * t)).

(** Polynomial with coefficients [cs], lowest first. *)
Fixpoint poly (cs : list R) (t : R) : R :=
  match cs with [] => 0 | c :: rest => c + t * poly rest t end.

(** [above f t]: the integrand at the point t is above the detection threshold 2^-52. *)
Definition above (f : er -> er) (t : R) : Prop :=
  match f (Fin (1 / t - 1)) with
  | NaN | MInf => False
  | PInf => True
  | Fin v => / 2 ^ 52 < v
  end.

(** Never negative. *)
Definition nonneg (v : er) : Prop :=
  match v with NaN | PInf => True | MInf => False | Fin x => 0 <= x end.

(** The integrand at t is above the detection threshold, or not a number. *)
Definition above_or_nan (f : er -> er) (t : R) : Prop :=
  above f t \/ f (Fin (1 / t - 1)) = NaN.

(** A number that is not negative. *)
Definition proper_nonneg (v : er) : Prop :=
  match v with NaN | MInf => False | PInf => True | Fin x => 0 <= x end.

(** The integrand at t is positive. *)
Definition positive_at (f : er -> er) (t : R) : Prop :=
  match f (Fin (1 / t - 1)) with
  | NaN | MInf => False
  | PInf => True
  | Fin v => 0 < v
  end.

(** [a],[b] is a proper sub-interval of [0,1] and [P] holds of its mid point unless it
    is the whole of [0,1]. *)
Definition good_range (P : R -> Prop) (ab : er * er) : Prop :=
  exists a b, ab = (Fin a, Fin b) /\ 0 <= a < b /\ b <= 1 /\
              ((a = 0 /\ b = 1) \/ P ((a + b) / 2)).

(** Result for all methods. *)
Definition range_promise (f : er -> er) (m : method) (t : R) : Prop :=
  match m with
  | BINARY_SUBDIVISION | REVERSE_BINARY_SUBDIVISION
  | LOW_FIRST_REVERSE_BINARY_SUBDIVISION => above f t
  | SCATTERED => above_or_nan f t
  | DIRECTED => (forall x, proper_nonneg (f x)) -> positive_at f t
  end.

(** The integrand is above the detection threshold throughout [u,v]. *)
Definition feature (f : er -> er) (u v : R) : Prop := forall t, u <= t <= v -> 0 < t -> above f t.


(** [v] is the Riemann integral of [g] from [a] to [b]. *)
Definition is_integral (g : R -> R) (a b v : R) : Prop := is_RInt g a b v.
