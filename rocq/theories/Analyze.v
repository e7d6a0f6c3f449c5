(** Running recorders: the command 'analyze' and the files it writes.

    Sources: /repo/src/pyslat.py 1472-1486 (registration), 1682-1694 (run), 61-68
    (full_output_path, see Paths.v); /repo/src/SlatInterpreter.py 461-474
    (print_options), 683-688 (analyze).

    Simplifications:
    - a file is a list of lines, a missing file an empty one; opening a file for
      writing always succeeds, and what is written before an exception stays;
    - the lines 'Perform analysis:' and the descriptions of recorders, printed to
      the terminal (SlatInterpreter.py 685, 687), are left out. *)

Require Import String Ascii List Bool.
From Verif Require Import Recorder Paths.
Import ListNotations.

Section Analyze.

Variable L : lib.

(** A recorder with its options 'filename' and 'append' (SlatInterpreter.py
    461-474; without options, 520-521, neither is there). *)
Record entry := Entry { e_recorder : recorder L; e_file : option path; e_append : bool }.

(** Files and their lines (pyslat.py 1686-1691). *)
Definition files := path -> list string.

(** Whether two paths are the same; the same file, as opened in pyslat.py
    1686-1689. *)
Definition path_eqb (a b : path) : bool := String.eqb (string_of_list_ascii a) (string_of_list_ascii b).

(** [open(destination, "a")] or [open(destination, "w")], and writing (pyslat.py
    1686-1691). *)
Definition write (f : files) (p : path) (append : bool) (lines : list string) : files :=
  fun q => if path_eqb q p then (if append then f q ++ lines else lines) else f q.

(** recorder.run (pyslat.py 1682-1694); [os.path.dirname(None)] raises TypeError
    (62). *)
Definition run (dir : option path) (f : files) (e : entry) : files * option exn :=
  match e_file e with
  | None => (f, Some TypeError)
  | Some n => let (lines, x) := generate (e_recorder e) in (write f (full_path dir n) (e_append e) lines, x)
  end.

(** The recorders defined so far, by name, in the order of Python's dictionaries
    (pyslat.py 1412, 1472-1473): a new definition of a name takes the place of the
    old one. *)
Definition defs := list (string * entry).

(** Entering a recorder under its name (pyslat.py 1472-1473). *)
Fixpoint define (d : defs) (id : string) (e : entry) : defs :=
  match d with
  | [] => [(id, e)]
  | (k, e') :: r => if String.eqb k id then (k, e) :: r else (k, e') :: define r id e
  end.

(** exitAnalyze_command (SlatInterpreter.py 683-688): every recorder in turn, until
    one raises. *)
Fixpoint analyze (dir : option path) (f : files) (d : defs) : files * option exn :=
  match d with
  | [] => (f, None)
  | (_, e) :: r =>
      match run dir f e with
      | (f, None) => analyze dir f r
      | (f, Some x) => (f, Some x)
      end
  end.

End Analyze.

Arguments Entry {L}. Arguments e_recorder {L}. Arguments e_file {L}. Arguments e_append {L}.
Arguments run {L}. Arguments define {L}. Arguments analyze {L}.
