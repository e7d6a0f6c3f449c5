(** * Reading the text of a script (src/slatLexer.g4)

    The lexer ANTLR generates: at each point the rules of the current mode are followed
    together, character by character, for as long as some rule can still match; the longest
    match wins, and of rules that match equally much the first.  Where none matches, the
    characters followed so far and the next one are reported and passed over.  Characters
    are ASCII. *)
From Coq Require Import Ascii String List Bool Arith.
From Verif Require Import Interp.
Import ListNotations.
Local Open Scope list_scope.

(** Kinds of token (slatLexer.g4 5-185): those the grammar of scripts uses, and the
    others. *)
Inductive tkind :=
| Of (k : kind)
| COMMENT | LBRACE | RBRACE | ANNCOST | COST | DISP | UPPER_COST | LOWER_COST | LOWER_N | UPPER_N
| MEAN_UNCERT | VAR_UNCERT | LAMBDA_FLAG | PLUS | MINUS | STAR | SINGLE_QUOTED_STRING.

(** Right-hand sides of the rules (slatLexer.g4 5-185): a character of a class, a
    sequence, alternatives, repetition. *)
Inductive re :=
| Nothing | Nil | Char (p : ascii -> bool) | Then (a b : re) | Or (a b : re) | Many (a : re).

(** Whether the empty text matches (slatLexer.g4 5-185: ANTLR's simulation has reached an accepting state). *)
Fixpoint nullable (r : re) : bool :=
  match r with
  | Nothing => false | Nil => true | Char _ => false
  | Then a b => nullable a && nullable b | Or a b => nullable a || nullable b | Many _ => true
  end.

(** Whether nothing matches any more (slatLexer.g4 5-185: ANTLR's simulation has no state left). *)
Fixpoint dead (r : re) : bool :=
  match r with
  | Nothing => true | Nil => false | Char _ => false
  | Then a b => dead a || dead b | Or a b => dead a && dead b | Many _ => false
  end.

(** What is left to match after a character (slatLexer.g4 5-185: one step of ANTLR's simulation). *)
Fixpoint after (c : ascii) (r : re) : re :=
  match r with
  | Nothing => Nothing | Nil => Nothing
  | Char p => if p c then Nil else Nothing
  | Then a b => if nullable a then Or (Then (after c a) b) (after c b) else Then (after c a) b
  | Or a b => Or (after c a) (after c b)
  | Many a => Then (after c a) (Many a)
  end.

(** A single character (slatLexer.g4 5). *)
Definition this (c : ascii) : re := Char (Ascii.eqb c).

(** A literal (slatLexer.g4 14-125). *)
Fixpoint chars (l : list ascii) : re := match l with [] => Nil | c :: l => Then (this c) (chars l) end.

(** A literal (slatLexer.g4 14-125). *)
Definition word (s : string) : re := chars (list_ascii_of_string s).

(** The operators [?] and [+] (slatLexer.g4 158-173). *)
Definition maybe (a : re) : re := Or Nil a.

(** The operators [?] and [+] (slatLexer.g4 158-173). *)
Definition some (a : re) : re := Then a (Many a).

(** Control characters (slatLexer.g4 6-8). *)
Definition tab : ascii := "009".

(** Control characters (slatLexer.g4 7). *)
Definition return_ : ascii := "013".

(** Control characters (slatLexer.g4 8). *)
Definition newline : ascii := "010".

(** Nondigit (slatLexer.g4 152-153). *)
Definition nondigit (c : ascii) : bool :=
  let n := nat_of_ascii c in
  Nat.eqb n 46 || Nat.eqb n 95 || (Nat.leb 65 n && Nat.leb n 90) || (Nat.leb 97 n && Nat.leb n 122).

(** COMMENT (slatLexer.g4 12). *)
Definition comment_re : re :=
  Then (this "#") (Many (Char (fun c => negb (Ascii.eqb c return_) && negb (Ascii.eqb c newline)))).

(** WS (slatLexer.g4 5-11). *)
Definition ws_re : re :=
  Or (this " ") (Or (this tab) (Or (this return_) (Or (this newline) comment_re))).

(** SINGLE_QUOTED_STRING (slatLexer.g4 128, 133-140). *)
Definition single_re : re :=
  Then (this "'") (Then (Many (Or (Char (fun c => negb (Ascii.eqb c "'")))
                                  (Or (word "\'") (word "\\"))))
                        (this "'")).

(** DOUBLE_QUOTED_STRING (slatLexer.g4 130-131, 142-149). *)
Definition double_re : re :=
  Then (this """") (Then (Many (Or (Char (fun c => negb (Ascii.eqb c "\") && negb (Ascii.eqb c """")))
                                   (Or (word "\""") (word "\\"))))
                         (this """")).

(** INTEGER and DIGIT_SEQUENCE (slatLexer.g4 158, 169-170). *)
Definition integer_re : re := some (Char digit).

(** ID (slatLexer.g4 160). *)
Definition id_re : re := Then (Char nondigit) (Many (Or (Char nondigit) (Char digit))).

(** SIGN (slatLexer.g4 163-164). *)
Definition sign_re : re := Or (this "-") (this "+").

(** FRACTION (slatLexer.g4 166-167). *)
Definition fraction_re : re :=
  Or (Then integer_re (maybe (Then (this ".") (maybe integer_re)))) (Then (this ".") integer_re).

(** EXPONENT (slatLexer.g4 172-173). *)
Definition exponent_re : re := Then (Or (this "e") (this "E")) (Then (maybe sign_re) integer_re).

(** FLOAT_VAL (slatLexer.g4 161). *)
Definition float_re : re := Then (maybe sign_re) (Then fraction_re (maybe exponent_re)).

(** FILE_NAME (slatLexer.g4 175). *)
Definition file_re : re := some (Char file_char).

(** The modes (slatLexer.g4 3, 178, 182). *)
Inductive lmode := Default | Pymode | Nestedpymode.

(** The literals before STRING (slatLexer.g4 14-83). *)
Definition literals_1 : list (tkind * string) :=
  [
    (Of PYTHON_ESCAPE, "$("); (Of LOG, "log"); (Of STDERR_FLAG, "--stderr");
    (Of NOSTDERR_FLAG, "--nostderr"); (LBRACE, "{"); (RBRACE, "}"); (Of LBRACKET, "[");
    (Of RBRACKET, "]"); (Of LPAREN, "("); (Of RPAREN, ")"); (Of INPUTDIR, "inputdir");
    (Of OUTPUTDIR, "outputdir"); (Of TITLE, "title"); (Of PRINT, "print"); (Of DETFN, "detfn");
    (Of PROBFN, "probfn"); (Of COLLAPSE, "collapse"); (Of DEMOLITION, "demolition");
    (Of COLLRATE, "collrate"); (Of IM, "im"); (Of EDP, "edp"); (Of FRAGFN, "fragfn");
    (Of LOSSFN, "lossfn"); (Of COMPGROUP, "compgroup"); (Of STRUCTURE, "structure");
    (Of REBUILDCOST, "rebuildcost"); (Of DEMOLITIONCOST, "demolitioncost"); (Of IMRATE, "imrate");
    (Of EDPIM, "edpim"); (Of EDPRATE, "edprate"); (Of DSEDP, "dsedp"); (Of DSIM, "dsim");
    (Of LOSSDS, "lossds"); (Of COSTEDP, "costedp"); (Of DELAYIM, "delayim");
    (Of DELAYEDP, "delayedp"); (Of COSTIM, "costim"); (Of STRUCTCOST, "structcost");
    (Of DSRATE, "dsrate"); (ANNCOST, "anncost"); (Of COSTRATE, "costrate");
    (Of TOTALCOST, "totalcost"); (Of PDF, "pdf"); (Of DEAGG, "deagg");
    (Of APPEND_OPTION, "--append"); (Of NEW_OPTION, "--new"); (Of DOLLARS, "$");
    (Of MEAN_LN_X, "mean_ln_x"); (Of MEDIAN_X, "median_x"); (Of MEAN_X, "mean_x");
    (Of SD_LN_X, "sd_ln_x"); (Of SD_X, "sd_x"); (Of MAQ, "maq"); (Of BINARY, "binary");
    (Of REVBIN, "revbin"); (Of LOWREV, "lowrev"); (Of SCATTERED, "scattered");
    (Of DIRECTED, "directed"); (Of BY_FATE_FLAG, "--by-fate"); (Of BY_EDP_FLAG, "--by-edp");
    (Of BY_FRAG_FLAG, "--by-frag"); (Of ANNUAL_FLAG, "--annual"); (Of NPV_FLAG, "--npv")]%string.

(** The literals after it (slatLexer.g4 87-125). *)
Definition literals_2 : list (tkind * string) :=
  [
    (Of HYPERBOLIC, "hyperbolic"); (Of POWERLAW, "powerlaw"); (Of LOGLOG, " loglog");
    (Of LINEAR, "linear"); (Of LINFLAG, "--linear"); (Of LOGFLAG, "--log"); (Of COMMA, ",");
    (Of SEMICOLON, ";"); (Of COLON, ":"); (Of LOGNORMAL, "lognormal"); (Of DB_FLAG, "--db");
    (Of STDFUNC_FLAG, "--stdfunc"); (Of MU_FLAG, "--mu"); (Of SD_FLAG, "--sd");
    (Of SIMPLE, "simple"); (Of BILEVEL, "bilevel"); (COST, "cost"); (DISP, "disp");
    (UPPER_COST, "upper_cost"); (LOWER_COST, "lower_cost"); (LOWER_N, "lower_n");
    (UPPER_N, "upper_n"); (MEAN_UNCERT, "mean_uncert"); (VAR_UNCERT, "var_uncert");
    (Of MESSAGE, "message"); (Of INTEGRATION, "integration"); (Of RECORDER, "recorder");
    (LAMBDA_FLAG, "--lambda"); (Of NORMALISE_FLAG, "--normalise"); (Of COLS_FLAG, "--cols");
    (Of ANALYZE, "analyze"); (Of SET, "set"); (Of IMPORTPROBFN, "importprobfn");
    (Of IMPORTIMFN, "importimfn"); (PLUS, "+"); (MINUS, "-"); (STAR, "*");
    (Of INTSTATS, "intstats"); (Of RESET, "reset")]%string.

(** The rule of a literal (slatLexer.g4 14-125). *)
Definition literal_rule (l : tkind * string) : tkind * re := (fst l, word (snd l)).

(** The rules of the first mode, in their order (slatLexer.g4 5-175). *)
Definition default_rules : list (tkind * re) :=
  [(Of WS, ws_re); (COMMENT, comment_re)] ++ map literal_rule literals_1 ++
  [(Of STRING, Or single_re double_re)] ++ map literal_rule literals_2 ++
  [(SINGLE_QUOTED_STRING, single_re); (Of INTEGER, integer_re); (Of ID, id_re);
   (Of FLOAT_VAL, float_re); (Of FILE_NAME, file_re)].

(** The rules of a mode (slatLexer.g4 5-185). *)
Definition rules (m : lmode) : list (tkind * re) :=
  match m with
  | Default => default_rules
  | Pymode => [(Of PYTHON_END, this ")"); (Of PYMODELPAREN, this "("); (Of OTHER, Char (fun _ => true))]
  | Nestedpymode =>
      [(Of NESTEDLPAREN, this "("); (Of NESTEDRPAREN, this ")"); (Of NESTEDOTHER, Char (fun _ => true))]
  end.

(** One match (SlatInterpreter.py 736-738; antlr4 LexerATNSimulator.execATN, failOrAccept): the rules still possible,
    the text, the number of characters followed, the longest match so far.  Returns the
    longest match, if any, and the number of characters followed. *)
Fixpoint scan (rs : list (tkind * re)) (s : list ascii) (n : nat) (best : option (tkind * nat))
  : option (tkind * nat) * nat :=
  let best := match find (fun r => nullable (snd r)) rs with Some (k, _) => Some (k, n) | None => best end in
  match s with
  | [] => (best, n)
  | c :: s' =>
      match filter (fun r => negb (dead (snd r))) (map (fun r => (fst r, after c (snd r))) rs) with
      | [] => (best, n)
      | rs' => scan rs' s' (S n) best
      end
  end.

(** What happens to the text, piece by piece: it becomes a token, it is skipped (WS), or it
    is reported on the error output and passed over (SlatInterpreter.py 736-738; antlr4
    Lexer.nextToken, recover). *)
Inductive event := Token (k : tkind) (t : list ascii) | Skipped (t : list ascii) | Dropped (t : list ascii).

(** How it ends: at the end of the text; [popMode] without a mode to return to, which
    raises (slatLexer.g4 180, 184; antlr4 Lexer.popMode).  [NoFuel]: an artefact of the model, excluded by
    theorem. *)
Inductive ending := AtEnd | EmptyStack | NoFuel.

(** [skip], [pushMode], [popMode] (slatLexer.g4 10, 14, 179-180, 183-184): the mode and the
    stack of modes after a token. *)
Definition switch (k : tkind) (m : lmode) (ms : list lmode) : option (lmode * list lmode) :=
  match k with
  | Of PYTHON_ESCAPE => Some (Pymode, m :: ms)
  | Of PYMODELPAREN | Of NESTEDLPAREN => Some (Nestedpymode, m :: ms)
  | Of PYTHON_END | Of NESTEDRPAREN => match ms with [] => None | m :: ms => Some (m, ms) end
  | _ => Some (m, ms)
  end.

(** The lexer (antlr4 Lexer.nextToken until the end of the text; SlatInterpreter.py
    736-738). *)
Fixpoint lex (fuel : nat) (m : lmode) (ms : list lmode) (s : list ascii) : list event * ending :=
  match s, fuel with
  | [], _ => ([], AtEnd)
  | _, O => ([], NoFuel)
  | _, S fuel =>
      match scan (rules m) s 0 None with
      | (None, n) =>
          let (l, e) := lex fuel m ms (skipn (S n) s) in (Dropped (firstn (S n) s) :: l, e)
      | (Some (k, n), _) =>
          match switch k m ms with
          | None => ([], EmptyStack)
          | Some (m', ms') =>
              let (l, e) := lex fuel m' ms' (skipn n s) in
              ((match k with Of WS => Skipped (firstn n s) | _ => Token k (firstn n s) end) :: l, e)
          end
      end
  end.

(** The lexer on a text (SlatInterpreter.py 736-738). *)
Definition read (s : list ascii) : list event * ending := lex (length s) Default [] s.

(** The tokens the parser gets (SlatInterpreter.py 738). *)
Fixpoint tokens (l : list event) : list (tkind * list ascii) :=
  match l with
  | [] => []
  | Token k t :: l => (k, t) :: tokens l
  | _ :: l => tokens l
  end.
