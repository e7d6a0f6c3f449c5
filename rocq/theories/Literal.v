(** * Strings in scripts

    Source: the tokens STRING (/repo/src/slatLexer.g4 85, 128-149) and
    [preprocess_string] (SlatInterpreter.py 23-24, in [Interp.v]).  ANTLR takes the
    longest text that a token matches.  Characters are ASCII. *)
From Coq Require Import Ascii String List Bool Arith.
From Verif Require Import Interp.
Import ListNotations.
Local Open Scope char_scope.

(** The two kinds of strings (slatLexer.g4 128, 131). *)
Inductive quote := Single | Double.

(** SINGLE_QUOTE and DOUBLE_QUOTE (slatLexer.g4 133-134, 142-143). *)
Definition mark (q : quote) : ascii := match q with Single => "'" | Double => """" end.

(** SQ_UNESCAPED_CHAR and DQ_UNESCAPED_CHAR (slatLexer.g4 136-137, 145-146): in
    single-quoted strings, backslashes are among them. *)
Definition unescaped (q : quote) (c : ascii) : bool :=
  match q with
  | Single => negb (Ascii.eqb c "'")
  | Double => negb (Ascii.eqb c "\") && negb (Ascii.eqb c """")
  end.

(** The second character of SQ_ESCAPED_CHAR and DQ_ESCAPED_CHAR (slatLexer.g4
    139-140, 148-149). *)
Definition escapable (q : quote) (c : ascii) : bool := Ascii.eqb c (mark q) || Ascii.eqb c "\".

(** The longest match after the opening quote (slatLexer.g4 128-131).  The
    characters so far may be complete elements of the string ([inside]), or such
    elements and the first character of an escape ([escape]), or both.  [n] counts
    them; [best] is the longest match so far. *)
Fixpoint longest (q : quote) (inside escape : bool) (n : nat) (best : option nat) (s : list ascii) : option nat :=
  match s with
  | [] => best
  | c :: r =>
      let best := if inside && Ascii.eqb c (mark q) then Some (S n) else best in
      let i := inside && unescaped q c || escape && escapable q c in
      let e := inside && Ascii.eqb c "\" in
      if i || e then longest q i e (S n) best r else best
  end.

(** The token at the start of a text that begins with a quote, and what follows
    it (slatLexer.g4 85): [None] if there is none. *)
Definition lex_string (s : list ascii) : option (list ascii * list ascii) :=
  match s with
  | [] => None
  | c :: r =>
      let found q := option_map (fun n => (c :: firstn n r, skipn n r)) (longest q true false 0 None r) in
      if Ascii.eqb c "'" then found Single else if Ascii.eqb c """" then found Double else None
  end.

(** The value a script gets for the token (SlatInterpreter.py 23-24, 77, 122). *)
Definition value_of (token : list ascii) : list ascii :=
  list_ascii_of_string (preprocess_string (string_of_list_ascii token)).
