(** What the dictionaries of definitions are to hold. *)
From Coq Require Import List.
From Verif Require Import Names.
Import ListNotations.

(** Whether a call makes a Python object, and under which class and name. *)
Definition defines (o : op) : option (class * option nat) :=
  match o with
  | New c id Makes => Some (c, id)
  | Empty true id => Some (KFrag, id)
  | Empty false id => Some (KLoss, id)
  | _ => None
  end.

(** Whether class and name are the same. *)
Definition same (a b : class * option nat) : {a = b} + {a <> b}.
Proof. repeat decide equality. Defined.

(** The classes whose definitions take each other's place: measures, demand parameters,
    fragility functions, loss functions and groups. *)
Definition succeeds (c : class) : Prop := In c [KIm; KEdp; KFrag; KLoss; KGrp].

(** The objects handed over by a definition in whose place [f] comes. *)
Definition hands (c : class) (old : option nat) (f : nat) (h : list (nat * nat)) : Prop :=
  match old with
  | Some o => (succeeds c -> h = [(o, f)]) /\ (~ succeeds c -> h = [])
  | None => h = []
  end.

(** The calls of a history with their answers. *)
Definition trace (l : list op) : list (op * answer) := combine l (fst (run initial l)).

(** The object of the latest definition of a name which was accepted, since the last
    [ClearCaches]; objects are numbered in the order they are made, whether or not they
    are accepted. *)
Fixpoint latest (k : class * option nat) (h : list (op * answer)) (next : nat) (now : option nat) : option nat :=
  match h with
  | [] => now
  | (o, a) :: r =>
      latest k r (match defines o with Some _ => S next | None => next end)
        (match o, a, defines o with
         | Clear, _, _ => None
         | _, Fine, Some k' => if same k k' then Some next else now
         | _, _, _ => now
         end)
  end.

(** A history in which nothing that is made ends the process, and one without
    placeholders. *)
Definition survivable (l : list op) : Prop := forall c id, ~ In (New c id Kills) l.
Definition solid (l : list op) : Prop := forall b id, ~ In (Empty b id) l.

(** The state after a history. *)
Definition after (l : list op) : state := snd (run initial l).

(** An object of the library is wrapped by the definition of a name. *)
Definition wraps (s : state) (c : class) (id : option nat) (w f : nat) : Prop :=
  lookup s c id = Some w /\ func s w = Some f.
