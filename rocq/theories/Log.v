(** Where log messages go.

    Sources: /repo/src/pyslatcore.cpp 13-42 (Initialise, SetLogFile, LogToStdErr),
    called from /repo/src/pyslat.py 21, 295-296, 307-308 and
    /repo/src/SlatInterpreter.py 707-713.

    Boost.Log's core (boost/log/core/core.hpp), outside /repo, is modelled as its
    documentation describes it: a collection of sinks, to each of which every record
    is passed; without sinks, records go to a default sink, which prints them to the
    standard output.  Opening files always succeeds; contents and severities of
    messages are left out. *)

Require Import List Bool Arith String.
Import ListNotations.

(** Where a sink writes: [add_console_log(std::cerr)] or [add_file_log(path)]
    (pyslatcore.cpp 19, 27, 34), and the default sink. *)
Inductive place := Stderr | File (path : string) | Stdout.

(** Sinks registered, the variables [std_error_sink] and [file_sink] (pyslatcore.cpp
    13-14), and the name of the next sink made. *)
Record log := Log { sinks : list (nat * place); std_error_sink : option nat; file_sink : option nat; fresh : nat }.

(** [add_console_log] and [add_file_log] register a new sink (pyslatcore.cpp 19, 27,
    34). *)
Definition add (p : place) (s : log) : log * nat :=
  (Log (sinks s ++ [(fresh s, p)]) (std_error_sink s) (file_sink s) (S (fresh s)), fresh s).

(** [core::remove_sink] (pyslatcore.cpp 25, 38). *)
Definition remove (k : nat) (s : log) : log :=
  Log (filter (fun x => negb (Nat.eqb (fst x) k)) (sinks s)) (std_error_sink s) (file_sink s) (fresh s).

(** Before anything is called (the static variables, pyslatcore.cpp 13-14). *)
Definition empty : log := Log [] None None 0.
(** Initialise (pyslatcore.cpp 16-20), which pyslat.py 21 calls once. *)
Definition initialise (s : log) : log :=
  let (s, k) := add Stderr s in Log (sinks s) (Some k) (file_sink s) (fresh s).

(** SetLogFile (pyslatcore.cpp 22-28). *)
Definition set_log_file (path : string) (s : log) : log :=
  let s := match file_sink s with Some k => remove k s | None => s end in
  let (s, k) := add (File path) s in
  Log (sinks s) (std_error_sink s) (Some k) (fresh s).

(** LogToStdErr (pyslatcore.cpp 30-42): the new sink is kept in a local variable. *)
Definition log_to_stderr (flag : bool) (s : log) : log :=
  if flag then
    match std_error_sink s with
    | None => fst (add Stderr s)
    | Some _ => s
    end
  else
    match std_error_sink s with
    | Some k => let s := remove k s in Log (sinks s) None (file_sink s) (fresh s)
    | None => s
    end.

(** The commands of scripts (SlatInterpreter.py 707-713). *)
Inductive command := ToStdErr (flag : bool) | ToFile (path : string).

(** One command (SlatInterpreter.py 707-713). *)
Definition step (s : log) (c : command) : log :=
  match c with ToStdErr b => log_to_stderr b s | ToFile p => set_log_file p s end.

(** The commands one after another (SlatInterpreter.py 707-713). *)
Definition session (h : list command) : log := fold_left step h (initialise empty).

(** The places a message is written to (Boost.Log's core, see above; messages are
    sent in maq.cpp 144-164, 625-722). *)
Definition message (s : log) : list place :=
  match sinks s with [] => [Stdout] | l => map snd l end.
