(** * What users of caches rely on, in terms of calls and answers *)
From Coq Require Import List Bool Arith.
From Verif Require Import Cache CVal.
Import ListNotations.

(** The arguments a program asks for, in order. *)
Fixpoint asked {V W} (p : list (@op V W)) : list V :=
  match p with
  | [] => []
  | Call v :: rest => v :: asked rest
  | _ :: rest => asked rest
  end.

(** The number of calls in a program that uses a cached value. *)
Fixpoint vasked {W} (p : list (@vop W)) : nat :=
  match p with
  | [] => 0
  | VCall :: rest => S (vasked rest)
  | _ :: rest => vasked rest
  end.

(** The answers a thread has received. *)
Definition answers {V T W} (t : @thread V T W) : list (V * option T) :=
  map (fun e => (en_arg e, en_answer e)) (th_log t).
Definition vanswers {T W} (t : @vthread T W) : list (option T) := map ve_answer (vt_log t).

(** Nothing left to do. *)
Definition done {V T W} (t : @thread V T W) : Prop := th_prog t = [] /\ th_at t = None.
Definition vfin {T W} (t : @vthread T W) : Prop := vt_prog t = [] /\ vt_at t = None.

(** Sum over the first [m] threads. *)
Fixpoint sum_below (f : nat -> nat) (m : nat) : nat :=
  match m with O => 0 | S j => f j + sum_below f j end.

(** A calculation that does not tell apart arguments the cache takes for equal. *)
Definition respects {V K T} (key : V -> K) (f : V -> T) : Prop :=
  forall v v', key v = key v' -> f v = f v'.

(** A function of the argument alone that never throws. *)
Definition pure {V T} (W : Type) (f : V -> T) : W -> V -> option T := fun _ v => Some (f v).

(** The answer is that of the calculation, in some state of the world in force since the
    last clear. *)
Definition up_to_date {V K T W} (key : V -> K) (func : W -> V -> option T) (e : @entry V T W) : Prop :=
  exists w v, In w (en_worlds e) /\ key v = key (en_arg e) /\ func w v = en_answer e.
Definition vup_to_date {T W} (func : W -> option T) (e : @ventry T W) : Prop :=
  exists w, In w (ve_worlds e) /\ func w = ve_answer e.
