(** * From the text of scripts to what they do (src/SlatInterpreter.py 729-748)

    The parser is described by its result: a tree the grammar derives, whose leaves are the
    words the lexer found; if there is none, it raises. *)
From Coq Require Import Ascii String List.
From Verif Require Import Interp Lexer.
Import ListNotations.
Local Open Scope list_scope.

(** The leaves of a tree, from left to right (antlr4 CommonTokenStream; SlatInterpreter.py 738-741). *)
Fixpoint leaves (t : tree) : list (kind * string) :=
  match t with
  | Leaf k s => [(k, s)]
  | Node _ l => flat_map leaves l
  end.

(** Words as the lexer makes them (SlatInterpreter.py 737-738). *)
Definition as_word (l : kind * string) : tkind * list ascii := (Of (fst l), list_ascii_of_string (snd l)).

(** [parser.script()] (SlatInterpreter.py 736-741; slatParser.g4 5): the rule [script] with
    all words of the text; the lexer comes to its end.  Simplified: that the generated parser finds a tree whenever
    there is one is taken from antlr4. *)
Definition parses (s : list ascii) (t : tree) : Prop :=
  (exists l, t = Node script l) /\ derives t /\ map as_word (leaves t) = tokens (fst (read s)) /\
  snd (read s) = AtEnd.

(** How a run over several files ends: after all of them; with an exception of the
    interpreter; with one of the parser (BailErrorStrategy, SlatInterpreter.py 740). *)
Inductive finish (world : Type) := Finished (w : world) | Stopped (e : exn) (w : world) | Misread (w : world).
Arguments Finished {world} w.
Arguments Stopped {world} e w.
Arguments Misread {world} w.

(** [main] (SlatInterpreter.py 729-748): the texts of the files in their order, each with a
    new interpreter.  Simplified: the files can be read; what is printed about them
    (731-734) is left out. *)
Inductive main (world : Type) (ask : string -> list value -> world -> (value + exn) * world)
  : list (list ascii) -> world -> finish world -> Prop :=
| main_end : forall w, main world ask [] w (Finished w)
| main_next : forall s t l w st f, parses s t -> run world ask t w = Ok world unit tt st ->
    main world ask l (outside world (body world st)) f -> main world ask (s :: l) w f
| main_stop : forall s t l w e c, parses s t -> run world ask t w = Raise world unit e c ->
    main world ask (s :: l) w (Stopped e (outside world c))
| main_misread : forall s l w, (forall t, ~ parses s t) -> main world ask (s :: l) w (Misread w).
