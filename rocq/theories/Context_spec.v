(** * What the diagnostic context should be *)
From Coq Require Import List Arith Bool.
From Verif Require Import Context.
Import ListNotations.

Section Spec.
Context {X : Type}.

(** The open scopes of the thread at a position and those of the threads it was
    started from, outermost first; [None] if there is no such thread. *)
Fixpoint open_scopes (pos : list nat) (t : thread X) : option (list X) :=
  match pos, t with
  | [], Thread s _ => Some s
  | i :: pos, Thread s l =>
      match nth_error l i with
      | None => None
      | Some u => match open_scopes pos u with None => None | Some r => Some (s ++ r) end
      end
  end.

(** There is a running thread at the position. *)
Fixpoint running (pos : list nat) (t : thread X) : Prop :=
  match pos, t with
  | [], Thread _ l => l = []
  | i :: pos, Thread _ l => match nth_error l i with None => False | Some u => running pos u end
  end.

(** No region with several threads in this thread. *)
Inductive serial : thread X -> Prop :=
| serial_thread : forall s, serial (Thread s [])
| serial_region : forall s u, serial u -> serial (Thread s [u]).

(** All regions at depth [d] have [sizes d] threads, or one and then no regions with
    several inside. *)
Inductive uniform (sizes : nat -> nat) : nat -> thread X -> Prop :=
| uniform_serial : forall d t, serial t -> uniform sizes d t
| uniform_region : forall d s l, 2 <= sizes d -> length l = sizes d ->
    (forall i u, nth_error l i = Some u -> uniform sizes (S d) u) -> uniform sizes d (Thread s l).

(** States reached by steps between which the regions are uniform. *)
Inductive reached (sizes : nat -> nat) : state X -> Prop :=
| reached_start : reached sizes start
| reached_step : forall s pos a s', reached sizes s -> step s pos a = Next s' -> uniform sizes 0 (fst s') ->
    reached sizes s'.

End Spec.

(** No text is left anywhere in the tree. *)
Inductive all_empty {X : Type} : ctx X -> Prop :=
| all_empty_ctx : forall l, (forall i c, nth_error l i = Some (Some c) -> all_empty c) -> all_empty (Ctx [] l).
