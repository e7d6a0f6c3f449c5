(** What 'analyze' should do: /repo/slat-lang.org 385-390, 870-905. *)

Require Import String Ascii List Bool.
From Verif Require Import Recorder Recorder_spec Paths Paths_spec Analyze.
Import ListNotations.

(** The definitions in force after some commands 'recorder': of each name the last,
    in the order in which names came up first. *)
Definition in_force {L} (cmds : list (string * entry L)) (d : defs L) : Prop :=
  (forall id e, In (id, e) d <-> exists a b, cmds = a ++ (id, e) :: b /\ ~ In id (map fst b)) /\
  NoDup (map fst d) /\
  (forall a b, (exists x y z, map fst d = x ++ a :: y ++ b :: z) ->
     exists x y, map fst cmds = x ++ a :: y /\ ~ In b x /\ In b y /\ a <> b).

(** A recorder's output, if it ends normally. *)
Definition output {L} (e : entry L) (lines : list string) : Prop := generate (e_recorder e) = (lines, None).

(** The file a recorder names. *)
Definition writes_to {L} (dir : option path) (e : entry L) (p : path) : Prop :=
  exists n, e_file e = Some n /\ meant (in_use dir) n p.

(** A file after 'analyze', given those before: what was there, if the first recorder
    that writes to it appends or none does; then the output of each recorder in
    turn, each overwriting all unless it appends. *)
Inductive left_in {L} (dir : option path) (p : path) : list (entry L) -> list string -> list string -> Prop :=
| Left_end : forall old, left_in dir p [] old old
| Left_other : forall e r old new, ~ writes_to dir e p -> left_in dir p r old new -> left_in dir p (e :: r) old new
| Left_append : forall e r lines old new, writes_to dir e p -> e_append e = true -> output e lines ->
    left_in dir p r (old ++ lines) new -> left_in dir p (e :: r) old new
| Left_new : forall e r lines old new, writes_to dir e p -> e_append e = false -> output e lines ->
    left_in dir p r lines new -> left_in dir p (e :: r) old new.
