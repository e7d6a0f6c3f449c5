(** * Damage, loss and fate

    Source: /repo/src/fragility.cpp, loss_functions.cpp, the fates in
    relationships.h, and the loss given a demand in comp_group.cpp.  Exact
    arithmetic as in [Lognormal.v]; integers are those of the machine.  Locks
    and caches are left out (see [Cache.v]). *)
From Coq Require Import Reals List Bool ZArith.
From Verif Require Import Num ER ERmath Lognormal.
Import ListNotations.

(** What a call does: returns, throws, or has undefined behaviour.  No
    counterpart in /repo; C++ itself (loss_functions.cpp 18-27, 104-136 throw or
    overflow). *)
Inductive outcome (A : Type) := Returns (a : A) | Throws | Undefined.
Arguments Returns {A} a. Arguments Throws {A}. Arguments Undefined {A}.

(** Sequencing of the calls above (loss_functions.cpp 20, 59-61, 129-135). *)
Definition bind {A B : Type} (o : outcome A) (k : A -> outcome B) : outcome B :=
  match o with Returns a => k a | Throws => Throws | Undefined => Undefined end.

(** ** Fragility functions *)

(** The loop of the constructor (fragility.cpp 28-37). *)
Fixpoint onsets_ok (mean : er) (onsets : list lnd) : bool :=
  match onsets with
  | [] => true
  | d :: r => if er_leb (get_mu_lnX d) mean then false else onsets_ok (get_mu_lnX d) r
  end.

(** [FragilityFn::FragilityFn] (fragility.cpp 19-40). *)
Definition new_fragility (onsets : list lnd) : outcome (list lnd) :=
  match onsets with
  | [] => Throws
  | _ => if onsets_ok NaN onsets then Returns onsets else Throws
  end.

(** [FragilityFn::pExceeded] (fragility.cpp 54-61). *)
Definition p_exceeded (N : normal) (f : list lnd) (edp : er) : list er :=
  map (fun d => p_at_most N d edp) f.

(** The loop of [pHighest] (fragility.cpp 66-71): the element subtracted has
    not been changed yet. *)
Fixpoint differences (l : list er) : list er :=
  match l with
  | a :: (b :: _) as r =>
      let v := er_sub a b in (if er_ltb v (Fin 0) then Fin 0 else v) :: differences r
  | _ => l
  end.

(** [FragilityFn::pHighest] (fragility.cpp 63-73). *)
Definition p_highest (N : normal) (f : list lnd) (edp : er) : list er := differences (p_exceeded N f edp).

(** ** Loss functions *)

(** [BiLevelLoss] (loss_functions.h 69-82, loss_functions.cpp 75-85). *)
Record bilevel := BiLevel {
  count_min : Z; count_max : Z; cost_at_min : er; cost_at_max : er; dispersion : er }.

(** Bounds of [int] on the platforms SLAT is built for (no counterpart in
    /repo; used for the subtractions of loss_functions.cpp 112). *)
Definition int_min : Z := (-2147483648)%Z.
(** As above. loss_functions.cpp 112. *)
Definition int_max : Z := 2147483647%Z.
(** As above. loss_functions.cpp 112. *)
Definition is_int (z : Z) : bool := (int_min <=? z)%Z && (z <=? int_max)%Z.

(** [int] subtraction (loss_functions.cpp 112): overflow is undefined. *)
Definition int_sub (a b : Z) : outcome Z :=
  if is_int (a - b)%Z then Returns (a - b)%Z else Undefined.

(** The mean in [LossFunctionsForCount_calc] (loss_functions.cpp 106-113). *)
Definition level_mean (b : bilevel) (count : Z) : outcome er :=
  if (count <=? count_min b)%Z then Returns (cost_at_min b)
  else if (count_max b <=? count)%Z then Returns (cost_at_max b)
  else bind (int_sub count (count_min b)) (fun u =>
       bind (int_sub (count_max b) (count_min b)) (fun v =>
       Returns (er_add (cost_at_min b)
                  (er_mul (er_div (Fin (IZR u)) (Fin (IZR v)))
                          (er_sub (cost_at_max b) (cost_at_min b)))))).

(** [BiLevelLoss::LossFunctionsForCount_calc] (loss_functions.cpp 104-115). *)
Definition level_dist (b : bilevel) (count : Z) : outcome lnd :=
  bind (level_mean b count) (fun m => Returns (from_mean_sdln m (dispersion b))).

(** [LossFn] and its subclasses (loss_functions.h 22-101). *)
Inductive lossfn := BaseLoss | SimpleLoss (l : list lnd) | BiLevelLoss (l : list bilevel).

(** The constructors (loss_functions.cpp 43-50, 96-102). *)
Definition new_simple (l : list lnd) : outcome lossfn :=
  match l with [] => Throws | _ => Returns (SimpleLoss l) end.
(** As above. loss_functions.cpp 96-102. *)
Definition new_bilevel (l : list bilevel) : outcome lossfn :=
  match l with [] => Throws | _ => Returns (BiLevelLoss l) end.

(** [n_states] (loss_functions.h 34-37, loss_functions.cpp 52-55, 118-121). *)
Definition n_states (f : lossfn) : outcome nat :=
  match f with
  | BaseLoss => Throws
  | SimpleLoss l => Returns (length l)
  | BiLevelLoss l => Returns (length l)
  end.

(** The loop of [BiLevelLossFn::CalculateUnadjustedLoss]
    (loss_functions.cpp 129-132). *)
Fixpoint levels (l : list bilevel) (count : Z) : outcome (list lnd) :=
  match l with
  | [] => Returns []
  | b :: r => bind (level_dist b count) (fun d => bind (levels r count) (fun ds => Returns (d :: ds)))
  end.

(** [AddWeightedDistributions] then [ScaleDistributionByNumComponents]
    (loss_functions.cpp 59-61, 133-135). *)
Definition weighted_loss (l : list lnd) (p : list er) (count : Z) : outcome lnd :=
  match add_weighted l p with
  | Some d => Returns (scale_count d (Fin (IZR count)))
  | None => Throws
  end.

(** [CalculateUnadjustedLoss] (loss_functions.cpp 23-27, 57-62, 123-136). *)
Definition unadjusted_loss (f : lossfn) (p : list er) (count : Z) : outcome lnd :=
  match f with
  | BaseLoss => Throws
  | SimpleLoss l => weighted_loss l p count
  | BiLevelLoss l =>
      if Nat.eqb (length p) (length l)
      then bind (levels l count) (fun ds => weighted_loss ds p count)
      else Throws
  end.

(** [LossFn::CalculateLoss] (loss_functions.cpp 18-21). *)
Definition calculate_loss (f : lossfn) (p : list er) (count : Z) (factor : er) : outcome lnd :=
  bind (unadjusted_loss f p count) (fun d => Returns (adjust d factor)).

(** [cost_EDP_dist], [delay_EDP_dist] of a component group with a loss function
    (comp_group.cpp 52-69); [None] is a group without. *)
Definition loss_given (N : normal) (frag : list lnd) (f : option lossfn) (count : Z) (factor edp : er) : outcome lnd :=
  match f with
  | None => Returns nodist
  | Some f => calculate_loss f (p_highest N frag edp) count factor
  end.

(** ** Fates *)

(** The curves of an intensity measure (relationships.h 37-38). *)
Record curves := Curves { collapse : option lnd; demolition : option lnd }.

(** relationships.h 88-94. *)
Definition p_collapse (N : normal) (c : curves) (im : er) : er :=
  match collapse c with Some d => p_at_most N d im | None => Fin 0 end.

(** relationships.h 120-126. *)
Definition p_demolition (N : normal) (c : curves) (im : er) : er :=
  match demolition c with
  | Some d => er_sub (p_at_most N d im) (p_collapse N c im)
  | None => Fin 0
  end.

(** relationships.h 100-102. *)
Definition p_repair (N : normal) (c : curves) (im : er) : er :=
  er_sub (Fin 1) (er_add (p_demolition N c im) (p_collapse N c im)).

(** One assignment [result[i] = v] (relationships.cpp 81, 91, 101). *)
Fixpoint set_nth {A : Type} (i : nat) (v : A) (l : list A) : list A :=
  match l, i with
  | [], _ => []
  | _ :: r, O => v :: r
  | x :: r, S i => x :: set_nth i v r
  end.

(** The parallel loops (relationships.cpp 79-82, 89-92, 99-102): the
    iterations in the order [order]. *)
Fixpoint for_each (f : er -> er) (ims : list er) (order : list nat) (result : list er) : list er :=
  match order with
  | [] => result
  | i :: r => for_each f ims r (set_nth i (f (nth i ims NaN)) result)
  end.

(** The vector forms (relationships.cpp 76-84). *)
Definition p_collapse_all (N : normal) (c : curves) (ims : list er) (order : list nat) : list er :=
  for_each (p_collapse N c) ims order (repeat (Fin 0) (length ims)).
(** relationships.cpp 86-94. *)
Definition p_demolition_all (N : normal) (c : curves) (ims : list er) (order : list nat) : list er :=
  for_each (p_demolition N c) ims order (repeat (Fin 0) (length ims)).
(** relationships.cpp 96-104. *)
Definition p_repair_all (N : normal) (c : curves) (ims : list er) (order : list nat) : list er :=
  for_each (p_repair N c) ims order (repeat (Fin 0) (length ims)).
