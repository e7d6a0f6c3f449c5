(** * The interpreter of the command language (src/SlatInterpreter.py, src/slatParser.g4)

    Parse trees as the parser generated from the grammar builds them, the grammar, and
    the listener which a walk over the tree drives. *)
From Coq Require Import List ZArith Bool Ascii String.
Import ListNotations.
Open Scope string_scope.
Open Scope list_scope.

(** Kinds of token (slatLexer.g4 1-185).  Simplified: only those which occur in rules
    reachable from [script]; keywords are written [k_…]. *)
Inductive kind :=
| WS | SEMICOLON | COMMA | COLON | LBRACKET | RBRACKET | LPAREN | RPAREN | DOLLARS
| ID | STRING | INTEGER | FLOAT_VAL | FILE_NAME
| PYTHON_ESCAPE | PYTHON_END | OTHER | PYMODELPAREN | NESTEDOTHER | NESTEDLPAREN | NESTEDRPAREN
| LOG | STDERR_FLAG | NOSTDERR_FLAG | INTSTATS | PRINT | RESET | TITLE | INPUTDIR | OUTPUTDIR
| DETFN | HYPERBOLIC | POWERLAW | LOGLOG | LINEAR | PROBFN | LOGNORMAL | IM | EDP
| COLLAPSE | DEMOLITION | FRAGFN | DB_FLAG | STDFUNC_FLAG | MU_FLAG | SD_FLAG
| MEAN_LN_X | MEDIAN_X | MEAN_X | SD_LN_X | SD_X
| LOSSFN | SIMPLE | BILEVEL | COMPGROUP | STRUCTURE | REBUILDCOST | DEMOLITIONCOST
| MESSAGE | APPEND_OPTION | NEW_OPTION
| INTEGRATION | MAQ | BINARY | REVBIN | LOWREV | SCATTERED | DIRECTED
| RECORDER | DSRATE | COLLRATE | COSTRATE | DEAGG | TOTALCOST | PDF | NORMALISE_FLAG | STRUCTCOST
| NPV_FLAG | ANNUAL_FLAG | BY_FATE_FLAG | BY_EDP_FLAG | BY_FRAG_FLAG
| IMRATE | EDPIM | EDPRATE | DSEDP | DSIM | LOSSDS | COSTEDP | COSTIM | DELAYIM | DELAYEDP
| LINFLAG | LOGFLAG | COLS_FLAG | ANALYZE | SET | IMPORTPROBFN | IMPORTIMFN.

(** Rules of the grammar (slatParser.g4 5-144).  Simplified: rules not reachable from
    [script] are left out. *)
Inductive rule :=
| script | command | log_command | intstats_command | title_command | inputdir_command
| outputdir_command | detfn_command | hyperbolic_args | powerlaw_args | loglog_args | linear_args
| scalar | scalar2 | scalar3 | var_ref | numerical_scalar | parameters | parameter
| parameter_array | parameter_dictionary | dictionary_entry | probfn_command | function_ref
| im_command | edp_command | collapse_command | demolition_command | fragfn_command | file_spec
| fragfn_db_params | fragfn_user_defined_params | mu_option | sd_option | lognormal_options
| placement_type | spread_type | lognormal_dist | db_key | lossfn_command | simple_loss_command
| bilevel_spec | bilevel_spec_sequence | bilevel_loss_command | scalar2_sequence
| compgroup_command | group_id | edp_id | frag_id | cost_id | delay_id | structure_command | id_list
| rebuildcost_command | demolitioncost_command | print_command | print_message | print_title
| print_function | print_options | integration_search_option | integration_command
| integration_method | recorder_command | recorder_id | recorder_type | recorder_at | counted_at
| float_array | structcost_type | col_spec | recorder_cols | python_script | python_expression
| analyze_command | set_command | importprobfn_command | importimfn_command.

Scheme Equality for kind.
Scheme Equality for rule.

(** Parse trees, as built by the generated parser (antlr4 ParserRuleContext and
    TerminalNode; SlatInterpreter.py 736-741).  Simplified: positions in the text are left
    out, and so is the end-of-file token of [script]. *)
Inductive tree :=
| Leaf (k : kind) (text : string)
| Node (r : rule) (children : list tree).

(** Right-hand sides of rules (slatParser.g4 5-144). *)
Inductive rhs :=
| Eps
| T (k : kind)
| R (r : rule)
| Seq (a b : rhs)
| Alt (a b : rhs)
| Star (a : rhs).

(** The operator [?] of the grammar (slatParser.g4 14). *)
Definition Opt (a : rhs) : rhs := Alt Eps a.

(** A sequence of symbols (slatParser.g4 14-144). *)
Fixpoint seq (l : list rhs) : rhs :=
  match l with [] => Eps | [a] => a | a :: l => Seq a (seq l) end.

(** Alternatives (slatParser.g4 7-12). *)
Fixpoint alts (l : list rhs) : rhs :=
  match l with [] => Eps | [a] => a | a :: l => Alt a (alts l) end.

(** The grammar (slatParser.g4 5-144). *)
Definition grammar (r : rule) : rhs :=
  match r with
  | script => Star (Alt (T WS) (R command))
  | command => Seq (alts (map R [title_command; detfn_command; probfn_command; im_command;
      edp_command; fragfn_command; lossfn_command; compgroup_command; print_command;
      integration_command; recorder_command; analyze_command; set_command; importprobfn_command;
      collapse_command; demolition_command; structure_command; importimfn_command;
      rebuildcost_command; demolitioncost_command; log_command; intstats_command;
      inputdir_command; outputdir_command])) (T SEMICOLON)
  | log_command => seq [T LOG; Opt (Alt (T STDERR_FLAG) (T NOSTDERR_FLAG)); Opt (R file_spec)]
  | intstats_command => seq [T INTSTATS; Alt (T PRINT) (T RESET)]
  | title_command => seq [T TITLE; T STRING]
  | inputdir_command => seq [T INPUTDIR; R file_spec]
  | outputdir_command => seq [T OUTPUTDIR; R file_spec]
  | detfn_command =>
      seq [T DETFN; T ID; alts (map R [hyperbolic_args; powerlaw_args; loglog_args; linear_args])]
  | hyperbolic_args => seq [T HYPERBOLIC; R scalar3]
  | powerlaw_args => seq [T POWERLAW; R scalar2]
  | loglog_args => seq [T LOGLOG; T LBRACKET; R scalar2; T RBRACKET;
      Star (seq [T COMMA; T LBRACKET; R scalar2; T RBRACKET])]
  | linear_args => seq [T LINEAR; T LBRACKET; R scalar2; T RBRACKET;
      Star (seq [T COMMA; T LBRACKET; R scalar2; T RBRACKET])]
  | scalar => Alt (T STRING) (R numerical_scalar)
  | scalar2 => seq [R scalar; T COMMA; R scalar]
  | scalar3 => seq [R scalar2; T COMMA; R scalar]
  | var_ref => seq [T DOLLARS; T ID]
  | numerical_scalar => alts [T INTEGER; T FLOAT_VAL; R python_script; R var_ref]
  | parameters => alts (map R [parameter; parameter_array; parameter_dictionary])
  | parameter => alts (map T [ID; STRING; INTEGER; FLOAT_VAL])
  | parameter_array =>
      seq [T LBRACKET; R parameter; Star (seq [T COMMA; R parameter]); T RBRACKET]
  | parameter_dictionary =>
      seq [T LPAREN; R dictionary_entry; Star (seq [T COMMA; R dictionary_entry]); T RPAREN]
  | dictionary_entry => seq [Alt (T ID) (T STRING); T COLON; R parameters]
  | probfn_command => seq [T PROBFN; T ID; T LOGNORMAL; R function_ref; T COMMA; R function_ref;
      R lognormal_options]
  | function_ref => Alt (T ID) (R var_ref)
  | im_command => seq [T IM; T ID; T ID]
  | edp_command => seq [T EDP; T ID; T ID; T ID]
  | collapse_command => seq [T COLLAPSE; T ID; R lognormal_dist]
  | demolition_command => seq [T DEMOLITION; T ID; R lognormal_dist]
  | fragfn_command => seq [T FRAGFN; T ID; Alt (R fragfn_db_params) (R fragfn_user_defined_params)]
  | file_spec => Alt (T FILE_NAME) (T ID)
  | fragfn_db_params =>
      Alt (seq [Opt (seq [T DB_FLAG; R file_spec]); T STDFUNC_FLAG; R db_key])
          (seq [T STDFUNC_FLAG; R db_key; T DB_FLAG; R file_spec])
  | fragfn_user_defined_params => seq [R scalar2_sequence; R lognormal_options]
  | mu_option => seq [T MU_FLAG; alts (map T [MEAN_LN_X; MEDIAN_X; MEAN_X])]
  | sd_option => seq [T SD_FLAG; Alt (T SD_LN_X) (T SD_X)]
  | lognormal_options =>
      Alt (seq [Opt (R mu_option); Opt (R sd_option)]) (seq [R sd_option; R mu_option])
  | placement_type => alts (map T [MEAN_LN_X; MEDIAN_X; MEAN_X])
  | spread_type => Alt (T SD_LN_X) (T SD_X)
  | lognormal_dist => seq [R scalar2; R lognormal_options]
  | db_key => T ID
  | lossfn_command => seq [T LOSSFN; T ID; Alt (R simple_loss_command) (R bilevel_loss_command)]
  | simple_loss_command => seq [T SIMPLE; R scalar2_sequence; R lognormal_options]
  | bilevel_spec => seq [T LBRACKET; R numerical_scalar; T COMMA; R numerical_scalar; T COMMA;
      R numerical_scalar; T COMMA; R numerical_scalar; T COMMA; R numerical_scalar; T RBRACKET]
  | bilevel_spec_sequence => seq [R bilevel_spec; Star (seq [T COMMA; R bilevel_spec])]
  | bilevel_loss_command => seq [T BILEVEL; R bilevel_spec_sequence]
  | scalar2_sequence => seq [T LBRACKET; R scalar2; T RBRACKET;
      Star (seq [T COMMA; T LBRACKET; R scalar2; T RBRACKET])]
  | compgroup_command => seq [T COMPGROUP; R group_id; R edp_id; R frag_id; R cost_id;
      Opt (R delay_id); T INTEGER; Opt (T FLOAT_VAL); Opt (T FLOAT_VAL)]
  | group_id => T ID
  | edp_id => T ID
  | frag_id => T ID
  | cost_id => T ID
  | delay_id => T ID
  | structure_command => seq [T STRUCTURE; T ID; R id_list]
  | id_list => seq [T ID; Star (seq [T COMMA; T ID])]
  | rebuildcost_command => seq [T REBUILDCOST; T ID; R lognormal_dist]
  | demolitioncost_command => seq [T DEMOLITIONCOST; T ID; R lognormal_dist]
  | print_command =>
      seq [alts (map R [print_message; print_function; print_title]); Opt (R print_options)]
  | print_message =>
      seq [T PRINT; T MESSAGE; Opt (alts [T STRING; R python_script; R var_ref])]
  | print_title => seq [T PRINT; T TITLE]
  | print_function =>
      seq [T PRINT; alts (map T [DETFN; PROBFN; IM; EDP; FRAGFN; LOSSFN; COMPGROUP]); T ID]
  | print_options => seq [R file_spec; Opt (Alt (T APPEND_OPTION) (T NEW_OPTION))]
  | integration_search_option => seq [alts (map T [BINARY; REVBIN; LOWREV; SCATTERED; DIRECTED]);
      alts [T INTEGER; R var_ref; R python_script]]
  | integration_command => seq [T INTEGRATION; R integration_method; R numerical_scalar;
      alts [T INTEGER; R var_ref; R python_script]; Opt (R integration_search_option)]
  | integration_method => T MAQ
  | recorder_command => seq [T RECORDER; R recorder_id;
      alts [seq [R recorder_type; T ID; R recorder_at; Opt (R recorder_cols)];
            seq [Alt (T DSRATE) (T COLLRATE); T ID];
            seq [alts (map T [COSTRATE; COLLAPSE; DEAGG; TOTALCOST]); T ID; R recorder_at];
            seq [T PDF; T ID; R recorder_at; Opt (T NORMALISE_FLAG)];
            seq [T STRUCTCOST; T ID;
              Alt (seq [T NPV_FLAG; T INTEGER; T COLON; T INTEGER; T COLON; T INTEGER; T FLOAT_VAL])
                  (Seq (Alt (seq [R structcost_type; R recorder_at])
                            (seq [T ANNUAL_FLAG; R lognormal_options]))
                       (Opt (R recorder_cols)))]];
      Opt (R print_options)]
  | recorder_id => T ID
  | recorder_type => alts (map T [DETFN; PROBFN; IMRATE; EDPIM; EDPRATE; DSEDP; DSIM; LOSSDS;
      COSTEDP; COSTIM; DELAYIM; DELAYEDP])
  | recorder_at => alts [R float_array; seq [T FLOAT_VAL; T COLON; T FLOAT_VAL; T COLON; T FLOAT_VAL];
      R python_script; R var_ref; R counted_at]
  | counted_at => seq [T FLOAT_VAL; T COLON; T FLOAT_VAL; Alt (T LINFLAG) (T LOGFLAG); T INTEGER]
  | float_array => seq [T FLOAT_VAL; Star (seq [T COMMA; T FLOAT_VAL])]
  | structcost_type => alts (map T [BY_FATE_FLAG; BY_EDP_FLAG; BY_FRAG_FLAG])
  | col_spec => alts (map R [placement_type; spread_type; scalar])
  | recorder_cols => seq [T COLS_FLAG; R col_spec; Star (seq [T COMMA; R col_spec])]
  | python_script => seq [T PYTHON_ESCAPE; R python_expression; T PYTHON_END]
  | python_expression =>
      Star (alts (map T [OTHER; PYMODELPAREN; NESTEDOTHER; NESTEDLPAREN; NESTEDRPAREN]))
  | analyze_command => T ANALYZE
  | set_command => seq [T SET; T ID; alts [R python_script; R var_ref; R parameters]]
  | importprobfn_command => seq [T IMPORTPROBFN; T ID; R file_spec]
  | importimfn_command => seq [T IMPORTIMFN; T ID; R file_spec]
  end.

(** The text of tokens which have only one (slatLexer.g4 14-125). *)
Definition fixed_text (k : kind) : option string :=
  match k with
  | SEMICOLON => Some ";" | COMMA => Some "," | COLON => Some ":" | LBRACKET => Some "["
  | RBRACKET => Some "]" | LPAREN => Some "(" | RPAREN => Some ")" | DOLLARS => Some "$"
  | PYTHON_ESCAPE => Some "$(" | PYTHON_END => Some ")" | PYMODELPAREN => Some "("
  | NESTEDLPAREN => Some "(" | NESTEDRPAREN => Some ")"
  | LOG => Some "log" | STDERR_FLAG => Some "--stderr" | NOSTDERR_FLAG => Some "--nostderr"
  | INTSTATS => Some "intstats" | PRINT => Some "print" | RESET => Some "reset"
  | TITLE => Some "title" | INPUTDIR => Some "inputdir" | OUTPUTDIR => Some "outputdir"
  | DETFN => Some "detfn" | HYPERBOLIC => Some "hyperbolic" | POWERLAW => Some "powerlaw"
  | LOGLOG => Some " loglog" | LINEAR => Some "linear" | PROBFN => Some "probfn"
  | LOGNORMAL => Some "lognormal" | IM => Some "im" | EDP => Some "edp"
  | COLLAPSE => Some "collapse" | DEMOLITION => Some "demolition" | FRAGFN => Some "fragfn"
  | DB_FLAG => Some "--db" | STDFUNC_FLAG => Some "--stdfunc" | MU_FLAG => Some "--mu"
  | SD_FLAG => Some "--sd" | MEAN_LN_X => Some "mean_ln_x" | MEDIAN_X => Some "median_x"
  | MEAN_X => Some "mean_x" | SD_LN_X => Some "sd_ln_x" | SD_X => Some "sd_x"
  | LOSSFN => Some "lossfn" | SIMPLE => Some "simple" | BILEVEL => Some "bilevel"
  | COMPGROUP => Some "compgroup" | STRUCTURE => Some "structure"
  | REBUILDCOST => Some "rebuildcost" | DEMOLITIONCOST => Some "demolitioncost"
  | MESSAGE => Some "message" | APPEND_OPTION => Some "--append" | NEW_OPTION => Some "--new"
  | INTEGRATION => Some "integration" | MAQ => Some "maq" | BINARY => Some "binary"
  | REVBIN => Some "revbin" | LOWREV => Some "lowrev" | SCATTERED => Some "scattered"
  | DIRECTED => Some "directed" | RECORDER => Some "recorder" | DSRATE => Some "dsrate"
  | COLLRATE => Some "collrate" | COSTRATE => Some "costrate" | DEAGG => Some "deagg"
  | TOTALCOST => Some "totalcost" | PDF => Some "pdf" | NORMALISE_FLAG => Some "--normalise"
  | STRUCTCOST => Some "structcost" | NPV_FLAG => Some "--npv" | ANNUAL_FLAG => Some "--annual"
  | BY_FATE_FLAG => Some "--by-fate" | BY_EDP_FLAG => Some "--by-edp"
  | BY_FRAG_FLAG => Some "--by-frag" | IMRATE => Some "imrate" | EDPIM => Some "edpim"
  | EDPRATE => Some "edprate" | DSEDP => Some "dsedp" | DSIM => Some "dsim"
  | LOSSDS => Some "lossds" | COSTEDP => Some "costedp" | COSTIM => Some "costim"
  | DELAYIM => Some "delayim" | DELAYEDP => Some "delayedp" | LINFLAG => Some "--linear"
  | LOGFLAG => Some "--log" | COLS_FLAG => Some "--cols" | ANALYZE => Some "analyze"
  | SET => Some "set" | IMPORTPROBFN => Some "importprobfn" | IMPORTIMFN => Some "importimfn"
  | _ => None
  end.

(** The characters of names of files (slatLexer.g4 175). *)
Definition file_char (c : ascii) : bool :=
  let n := nat_of_ascii c in
  (Nat.leb 46 n && Nat.leb n 57) || (Nat.leb 65 n && Nat.leb n 90) || (Nat.leb 97 n && Nat.leb n 122)
  || Nat.eqb n 95.

(** Digits (slatLexer.g4 156). *)
Definition digit (c : ascii) : bool :=
  let n := nat_of_ascii c in Nat.leb 48 n && Nat.leb n 57.

(** All characters of a text satisfy a test (Python's [all] over the characters; used for
    the character classes of slatLexer.g4 152-175). *)
Fixpoint all_chars (p : ascii -> bool) (s : string) : bool :=
  match s with EmptyString => true | String c s => p c && all_chars p s end.

(** The texts a token can have (slatLexer.g4 3-185).  Simplified: white space, strings,
    floating-point literals and the pieces of Python expressions may be any text, names any
    non-empty text of the characters of names of files. *)
Definition lexeme (k : kind) (s : string) : bool :=
  match fixed_text k with
  | Some t => String.eqb s t
  | None =>
      match k with
      | ID | FILE_NAME => negb (String.eqb s "") && all_chars file_char s
      | INTEGER => negb (String.eqb s "") && all_chars digit s
      | _ => true
      end
  end.

(** The children of a node match a right-hand side (slatParser.g4 5-144). *)
Inductive matches : rhs -> list tree -> Prop :=
| matches_eps : matches Eps []
| matches_token : forall k s, lexeme k s = true -> matches (T k) [Leaf k s]
| matches_rule : forall r l, matches (R r) [Node r l]
| matches_seq : forall a b l m, matches a l -> matches b m -> matches (Seq a b) (l ++ m)
| matches_left : forall a b l, matches a l -> matches (Alt a b) l
| matches_right : forall a b l, matches b l -> matches (Alt a b) l
| matches_none : forall a, matches (Star a) []
| matches_more : forall a l m, matches a l -> matches (Star a) m -> matches (Star a) (l ++ m).

(** The trees the grammar derives (slatParser.g4 5-144; a parser with the
    BailErrorStrategy of SlatInterpreter.py 740 returns no other). *)
Inductive derives : tree -> Prop :=
| derives_leaf : forall k s, derives (Leaf k s)
| derives_node : forall r l, matches (grammar r) l -> Forall derives l -> derives (Node r l).

(** Named constants of pyslat (pyslat.py 95-139). *)
Inductive const :=
| C_MEAN_LN_X | C_MEDIAN_X | C_MEAN_X | C_SD_X | C_SD_LN_X
| BINARY_SUBDIVISION | REVERSE_BINARY_SUBDIVISION | LOW_FIRST_REVERSE_BINARY_SUBDIVISION
| C_SCATTERED | C_DIRECTED.

(** Python values (SlatInterpreter.py 46-61).  Simplified: a floating-point value is given
    by its literal; other objects are numbered; a value is its contents, later changes to
    a shared object are not seen.  [VNode] is a node of the parse tree used as a value
    (line 205). *)
Inductive value :=
| VNone
| VBool (b : bool)
| VInt (n : Z)
| VFloat (literal : string)
| VStr (s : string)
| VConst (c : const)
| VNode (text : string)
| VList (l : list value)
| VDict (l : list (value * value))
| VObj (n : nat).

(** Exceptions (SlatInterpreter.py 70-73, 101; [ApiError]: any raised inside a call). *)
Inductive exn :=
| IndexError | TypeError | ValueError | AttributeError | UnboundLocalError | KeyError
| ApiError (n : nat).

(** The characters [strip] is to remove, both kinds of quotes (SlatInterpreter.py 24). *)
Definition is_quote (c : ascii) : bool := Ascii.eqb c "'" || Ascii.eqb c """".

(** [lstrip] (SlatInterpreter.py 24). *)
Fixpoint lstrip (s : list ascii) : list ascii :=
  match s with [] => [] | c :: s' => if is_quote c then lstrip s' else s end.

(** [strip] (SlatInterpreter.py 24). *)
Definition strip (s : list ascii) : list ascii := rev (lstrip (rev (lstrip s))).

(** [replace('\\c', 'c')]: leftmost, non-overlapping (SlatInterpreter.py 24). *)
Fixpoint replace (c : ascii) (s : list ascii) : list ascii :=
  match s with
  | [] => []
  | a :: s' =>
      match s' with
      | b :: s'' => if Ascii.eqb a "\" && Ascii.eqb b c then c :: replace c s'' else a :: replace c s'
      | [] => [a]
      end
  end.

(** [strip] of quotes alone (SlatInterpreter.py 260, 263). *)
Definition strip_quotes (s : string) : string :=
  string_of_list_ascii (strip (list_ascii_of_string s)).

(** [preprocess_string] (SlatInterpreter.py 23-24). *)
Definition preprocess_string (s : string) : string :=
  string_of_list_ascii
    (replace "\" (replace "'" (replace """" (strip (list_ascii_of_string s))))).

(** [int(text)] of a text of digits (SlatInterpreter.py 149, 352). *)
Definition int_of (s : string) : Z :=
  fold_left (fun n c => (10 * n + (Z.of_nat (nat_of_ascii c) - 48))%Z) (list_ascii_of_string s) 0%Z.

Section Interpreter.

(** The rest of the program: pyslat, the output, the evaluation of Python expressions.  A
    call is named and given its arguments; it may change the world, and returns a value or
    raises (pyslat.py 20-2009; SlatInterpreter.py 676-682). *)
Variable world : Type.
Variable ask : string -> list value -> world -> (value + exn) * world.

(** What of the interpreter outlives a command: [_variables], [_title]
    (SlatInterpreter.py 48-49), and the world. *)
Record core := Core { vars : list (string * value); titles : list string; outside : world }.

(** The listener (SlatInterpreter.py 44-49).  [stack] has the top first. *)
Record st := St { body : core; stack : list value; stacks : list (list value) }.

(** Outcome of a handler: an exception ends the walk, and with it the program
    (SlatInterpreter.py 729-748, nothing catches). *)
Inductive res (A : Type) := Ok (a : A) (s : st) | Raise (e : exn) (c : core).
Arguments Ok {A} a s.
Arguments Raise {A} e c.

(** Handlers (SlatInterpreter.py 64-727) are functions on the listener. *)
Definition M (A : Type) := st -> res A.

(** Sequencing of statements (SlatInterpreter.py 64-727). *)
Definition ret {A} (a : A) : M A := fun s => Ok a s.

(** Sequencing of statements (SlatInterpreter.py 64-727). *)
Definition bind {A B} (m : M A) (f : A -> M B) : M B :=
  fun s => match m s with Ok a s' => f a s' | Raise e c => Raise e c end.

(** [raise] (SlatInterpreter.py 71, 73, 94). *)
Definition raise {A} (e : exn) : M A := fun s => Raise e (body s).

Notation "x <- m ;; f" := (bind m (fun x => f)) (at level 61, m at next level, right associativity).
Notation "m ;;; f" := (bind m (fun _ => f)) (at level 61, right associativity).

(** A call of something outside the interpreter (SlatInterpreter.py 100-727). *)
Definition api (f : string) (args : list value) : M value :=
  fun s =>
    let c := body s in
    match ask f args (outside c) with
    | (inl v, w) => Ok v (St (Core (vars c) (titles c) w) (stack s) (stacks s))
    | (inr e, w) => Raise e (Core (vars c) (titles c) w)
    end.

(** An attribute of an object: [None] has none of those used (SlatInterpreter.py 225,
    235, 388). *)
Definition attr (v : value) : M unit :=
  match v with VNone => raise AttributeError | _ => ret tt end.

(** [self._stack.append] (SlatInterpreter.py 117). *)
Definition push (v : value) : M unit := fun s => Ok tt (St (body s) (v :: stack s) (stacks s)).

(** [self._stack.pop()] (SlatInterpreter.py 95). *)
Definition pop : M value :=
  fun s => match stack s with [] => Raise IndexError (body s)
           | v :: l => Ok v (St (body s) l (stacks s)) end.

(** [_push_stack] (SlatInterpreter.py 52-54). *)
Definition push_stack : M unit := fun s => Ok tt (St (body s) [] (stack s :: stacks s)).

(** [_pop_stack] (SlatInterpreter.py 58-61). *)
Definition pop_stack : M (list value) :=
  fun s => match stacks s with [] => Raise IndexError (body s)
           | l :: ls => Ok (rev (stack s)) (St (body s) l ls) end.

(** [v\[i\]] on lists (SlatInterpreter.py 100, 221). *)
Definition index (v : value) (i : nat) : M value :=
  match v with
  | VList l => match nth_error l i with Some x => ret x | None => raise IndexError end
  | _ => raise TypeError
  end.

(** Keys of dictionaries: strings are compared, two nodes are never the same
    (SlatInterpreter.py 189, 195, 298). *)
Definition same_key (a b : value) : bool :=
  match a, b with VStr s, VStr t => String.eqb s t | _, _ => false end.

(** [d\[k\] = v] (SlatInterpreter.py 189). *)
Fixpoint dict_set (d : list (value * value)) (k v : value) : list (value * value) :=
  match d with
  | [] => [(k, v)]
  | (k', v') :: d => if same_key k k' then (k', v) :: d else (k', v') :: dict_set d k v
  end.

(** [d\[k\]] (SlatInterpreter.py 206). *)
Fixpoint dict_get (d : list (value * value)) (k : value) : option value :=
  match d with
  | [] => None
  | (k', v) :: d => if same_key k k' then Some v else dict_get d k
  end.

(** [options\['mu'\]] (SlatInterpreter.py 206, 224). *)
Definition key (v : value) (k : string) : M value :=
  match v with
  | VDict d => match dict_get d (VStr k) with Some x => ret x | None => raise KeyError end
  | _ => raise TypeError
  end.

(** [options\[k\] = v] on a dictionary (SlatInterpreter.py 552, 567). *)
Definition set_key (o : value) (k : string) (v : value) : value :=
  match o with VDict d => VDict (dict_set d (VStr k) v) | _ => o end.

(** Accessors of nodes, as generated: the text of the tokens of a kind among the children,
    and the nodes of a rule (slatParser.py is generated; SlatInterpreter.py 81, 97). *)
Fixpoint toks (k : kind) (l : list tree) : list string :=
  match l with
  | [] => []
  | Leaf k' s :: l => if kind_beq k k' then s :: toks k l else toks k l
  | Node _ _ :: l => toks k l
  end.

(** The first of them (SlatInterpreter.py 97: [ctx.ID()]). *)
Definition tok (k : kind) (l : list tree) : option string := nth_error (toks k l) 0.

(** Whether there is one (SlatInterpreter.py 121: [if ctx.STRING()]). *)
Definition has (k : kind) (l : list tree) : bool :=
  match toks k l with [] => false | _ => true end.

(** The nodes of a rule (SlatInterpreter.py 202: [ctx.function_ref()]). *)
Fixpoint nodes (r : rule) (l : list tree) : list (list tree) :=
  match l with
  | [] => []
  | Node r' c :: l => if rule_beq r r' then c :: nodes r l else nodes r l
  | Leaf _ _ :: l => nodes r l
  end.

(** The first of them (SlatInterpreter.py 81: [ctx.powerlaw_args()]). *)
Definition node (r : rule) (l : list tree) : option (list tree) := nth_error (nodes r l) 0.

(** Whether there is one (SlatInterpreter.py 81). *)
Definition is_there (r : rule) (l : list tree) : bool :=
  match nodes r l with [] => false | _ => true end.

(** [getText()] of a tree (SlatInterpreter.py 203, 347, 677). *)
Fixpoint text (t : tree) : string :=
  match t with
  | Leaf _ s => s
  | Node _ l => fold_right (fun t s => append (text t) s) "" l
  end.

(** [getText()] of a node with these children (SlatInterpreter.py 347). *)
Definition texts (l : list tree) : string := fold_right (fun t s => append (text t) s) "" l.

(** [getText()] of what an accessor returned; it returns [None] if there is none, which
    has no such attribute (SlatInterpreter.py 97). *)
Definition the {A} (o : option A) : M A :=
  match o with Some a => ret a | None => raise AttributeError end.

(** [(ctx.file_spec().FILE_NAME() or ctx.file_spec().ID()).getText()]
    (SlatInterpreter.py 263, 465). *)
Definition file_text (l : list tree) : M string :=
  f <- the (node file_spec l) ;;
  match tok FILE_NAME f with Some s => ret s | None => the (tok ID f) end.

(** [pyslat.detfn(…)]: the constructor takes three arguments, and four kinds of function
    (pyslat.py 377-399). *)
Definition detfn (args : list value) : M value :=
  match args with
  | [_; VStr t; _] =>
      if String.eqb t "power law" || String.eqb t "hyperbolic" || String.eqb t "loglog"
         || String.eqb t "linear"
      then api "detfn" args else raise ValueError
  | [_; _; _] => raise ValueError
  | _ => raise TypeError
  end.

(** [list(range(first, last, step))] (SlatInterpreter.py 578). *)
Definition py_range (first last step : Z) : M (list value) :=
  (if Z.eqb step 0 then raise ValueError
   else if Z.ltb 0 step then
     ret (map (fun k => VInt (first + Z.of_nat k * step))
              (List.seq 0 (Z.to_nat ((last - first + step - 1) / step))))
   else
     ret (map (fun k => VInt (first + Z.of_nat k * step))
              (List.seq 0 (Z.to_nat ((first - last - step - 1) / (- step))))))%Z.

(** [for x in l: …] (SlatInterpreter.py 376). *)
Fixpoint for_each {A} (l : list A) (f : A -> M unit) : M unit :=
  match l with [] => ret tt | a :: l => f a ;;; for_each l f end.

(** Comprehensions which can raise (SlatInterpreter.py 112-116). *)
Fixpoint collect {A B} (l : list A) (f : A -> M B) : M (list B) :=
  match l with [] => ret [] | a :: l => b <- f a ;; bs <- collect l f ;; ret (b :: bs) end.

(** Insertion for the sort of column names (SlatInterpreter.py 598). *)
Fixpoint insert_name (s : string) (l : list string) : list string :=
  match l with
  | [] => [s]
  | t :: l' => if String.leb s t then s :: l else t :: insert_name s l'
  end.

(** [cols.sort()] on names (SlatInterpreter.py 598). *)
Definition sort_names (l : list string) : list string := fold_right insert_name [] l.

(** [exitTitle_command] (SlatInterpreter.py 76-77). *)
Definition exit_title (l : list tree) : M unit :=
  s <- the (tok STRING l) ;;
  fun x => let c := body x in
    Ok tt (St (Core (vars c) (titles c ++ [preprocess_string s]) (outside c)) (stack x) (stacks x)).

(** [exitDetfn_command] (SlatInterpreter.py 80-102).  Simplified: the tracing output of
    line 98 is left out. *)
Definition exit_detfn (l : list tree) : M unit :=
  ty <- (if is_there powerlaw_args l then ret "power law"
         else if is_there hyperbolic_args l then ret "hyperbolic"
         else if is_there loglog_args l then ret "loglog"
         else if is_there linear_args l then ret "lin"
         else raise ValueError) ;;
  v <- pop ;;
  id <- the (tok ID l) ;;
  if String.eqb ty "loglog" || String.eqb ty "lin" then
    a <- index v 0 ;;
    b <- index v 1 ;;
    detfn [VStr id; VStr ty; a; b] ;;; ret tt
  else
    detfn [VStr id; VStr ty; v] ;;; ret tt.

(** [exitLoglog_args] (SlatInterpreter.py 109-117). *)
Definition exit_loglog : M unit :=
  vs <- pop_stack ;;
  ps <- collect vs (fun p => a <- index p 0 ;; b <- index p 1 ;; ret (a, b)) ;;
  push (VList [VList (map fst ps); VList (map snd ps)]).

(** [exitScalar] (SlatInterpreter.py 120-125). *)
Definition exit_scalar (l : list tree) : M unit :=
  match tok STRING l with
  | Some s => push (VStr (preprocess_string s))
  | None => v <- pop ;; push v
  end.

(** [exitScalar2] (SlatInterpreter.py 128-131). *)
Definition exit_scalar2 : M unit :=
  b <- pop ;; a <- pop ;; push (VList [a; b]).

(** [exitScalar3] (SlatInterpreter.py 134-138). *)
Definition exit_scalar3 : M unit :=
  c <- pop ;; p <- pop ;;
  match p with VList l => push (VList (l ++ [c])) | _ => raise AttributeError end.

(** [self._variables.get(variable)] (SlatInterpreter.py 143). *)
Fixpoint get_var (x : string) (l : list (string * value)) : value :=
  match l with
  | [] => VNone
  | (y, v) :: l => if String.eqb x y then v else get_var x l
  end.

(** [exitVar_ref] (SlatInterpreter.py 141-144). *)
Definition exit_var_ref (l : list tree) : M unit :=
  x <- the (tok ID l) ;;
  fun s => push (get_var x (vars (body s))) s.

(** [exitNumerical_scalar] (SlatInterpreter.py 147-156). *)
Definition exit_numerical (l : list tree) : M unit :=
  match tok INTEGER l with
  | Some s => push (VInt (int_of s))
  | None =>
      match tok FLOAT_VAL l with
      | Some s => push (VFloat s)
      | None =>
          if is_there var_ref l || is_there python_script l then v <- pop ;; push v
          else raise ValueError
      end
  end.

(** [exitParameter] (SlatInterpreter.py 159-170). *)
Definition exit_parameter (l : list tree) : M unit :=
  match tok ID l with
  | Some s => push (VStr s)
  | None =>
      match tok STRING l with
      | Some s => push (VStr (preprocess_string s))
      | None =>
          match tok INTEGER l with
          | Some s => push (VInt (int_of s))
          | None => match tok FLOAT_VAL l with Some s => push (VFloat s) | None => raise ValueError end
          end
      end
  end.

(** The end of the scope of a list: [exitParameter_array], [exitScalar2_sequence],
    [exitBilevel_spec], [exitBilevel_spec_sequence], [exitRecorder_cols]
    (SlatInterpreter.py 177-179, 322-324, 331-333, 340-342, 671-673). *)
Definition exit_list : M unit := vs <- pop_stack ;; push (VList vs).

(** [exitParameter_dictionary] (SlatInterpreter.py 186-191). *)
Definition exit_dictionary : M unit :=
  fun s =>
    (d <- (fix go (d : list (value * value)) (l : list value) : M (list (value * value)) :=
             match l with
             | [] => ret d
             | p :: l => k <- index p 0 ;; v <- index p 1 ;; go (dict_set d k v) l
             end) [] (rev (stack s)) ;;
     pop_stack ;;; push (VDict d)) s.

(** [exitDictionary_entry] (SlatInterpreter.py 194-197): the key is the node, not its text;
    for a string, [preprocess_string] is given a node, which has no [strip]. *)
Definition exit_entry (l : list tree) : M unit :=
  k <- match tok ID l with Some s => ret (VNode s) | None => raise AttributeError end ;;
  v <- pop ;;
  push (VList [k; v]).

(** [refs\[i\].ID() or refs\[i\].var_ref()], then [getText()] (SlatInterpreter.py 203-204). *)
Definition ref_text (o : option (list tree)) : M string :=
  r <- the o ;;
  match tok ID r with
  | Some s => ret s
  | None => v <- the (node var_ref r) ;; ret (texts v)
  end.

(** [exitProbfn_command] (SlatInterpreter.py 200-209). *)
Definition exit_probfn (l : list tree) : M unit :=
  id <- the (tok ID l) ;;
  mufn <- ref_text (nth_error (nodes function_ref l) 0) ;;
  sdfn <- ref_text (nth_error (nodes function_ref l) 1) ;;
  o <- pop ;;
  mu <- key o "mu" ;;
  sd <- key o "sd" ;;
  f <- api "detfn.lookup" [VStr mufn] ;;
  g <- api "detfn.lookup" [VStr sdfn] ;;
  api "probfn" [VStr id; VStr "lognormal"; VList [mu; f]; VList [sd; g]] ;;; ret tt.

(** [exitIm_command] (SlatInterpreter.py 212-215). *)
Definition exit_im (l : list tree) : M unit :=
  id <- the (nth_error (toks ID l) 0) ;;
  fn <- the (nth_error (toks ID l) 1) ;;
  f <- api "detfn.lookup" [VStr fn] ;;
  api "im" [VStr id; f] ;;; ret tt.

(** A distribution from the stack (SlatInterpreter.py 219-224, 229-234). *)
Definition make_dist : M value :=
  o <- pop ;;
  p <- pop ;;
  mu <- index p 0 ;;
  sd <- index p 1 ;;
  m <- key o "mu" ;;
  s <- key o "sd" ;;
  api "MakeLogNormalDist" [mu; m; sd; s].

(** [exitCollapse_command] and [exitDemolition_command] (SlatInterpreter.py 217-235). *)
Definition exit_im_dist (method : string) (l : list tree) : M unit :=
  id <- the (tok ID l) ;;
  d <- make_dist ;;
  i <- api "im.lookup" [VStr id] ;;
  attr i ;;;
  api method [i; d] ;;; ret tt.

(** [exitRebuildcost_command] and [exitDemolitioncost_command] (SlatInterpreter.py
    382-396): the structure is found before the distribution is made. *)
Definition exit_structure_dist (method : string) (l : list tree) : M unit :=
  id <- the (tok ID l) ;;
  o <- pop ;;
  p <- pop ;;
  mu <- index p 0 ;;
  sd <- index p 1 ;;
  z <- api "structure.lookup" [VStr id] ;;
  attr z ;;;
  m <- key o "mu" ;;
  s <- key o "sd" ;;
  d <- api "MakeLogNormalDist" [mu; m; sd; s] ;;
  api method [z; d] ;;; ret tt.

(** [exitEdp_command] (SlatInterpreter.py 238-242). *)
Definition exit_edp (l : list tree) : M unit :=
  id <- the (nth_error (toks ID l) 0) ;;
  im <- the (nth_error (toks ID l) 1) ;;
  fn <- the (nth_error (toks ID l) 2) ;;
  i <- api "im.lookup" [VStr im] ;;
  f <- api "probfn.lookup" [VStr fn] ;;
  api "edp" [VStr id; i; f] ;;; ret tt.

(** [exitFragfn_command] (SlatInterpreter.py 245-256). *)
Definition exit_fragfn (l : list tree) : M unit :=
  id <- the (tok ID l) ;;
  if is_there fragfn_db_params l then
    d <- pop ;; api "fragfn_db" [VStr id; d] ;;; ret tt
  else
    o <- pop ;; d <- pop ;; api "fragfn_user" [VStr id; o; d] ;;; ret tt.

(** [exitFragfn_db_params] (SlatInterpreter.py 259-266). *)
Definition exit_db_params (l : list tree) : M unit :=
  d <- the (node db_key l) ;;
  k <- the (tok ID d) ;;
  f <- (if is_there file_spec l then f <- file_text l ;; ret (strip_quotes f)
        else ret "(default database)") ;;
  push (VDict [(VStr "key", VStr (strip_quotes k)); (VStr "database", VStr f)]).

(** [exitLognormal_options] (SlatInterpreter.py 269-298). *)
Definition exit_options (l : list tree) : M unit :=
  mu <- match node mu_option l with
        | Some m =>
            if has MEAN_LN_X m then ret (VConst C_MEAN_LN_X)
            else if has MEDIAN_X m then ret (VConst C_MEDIAN_X)
            else if has MEAN_X m then ret (VConst C_MEAN_X)
            else raise ValueError
        | None => ret VNone
        end ;;
  sd <- match node sd_option l with
        | Some m =>
            if has SD_X m then ret (VConst C_SD_X)
            else if has SD_LN_X m then ret (VConst C_SD_LN_X)
            else raise ValueError
        | None => ret VNone
        end ;;
  push (VDict [(VStr "mu", mu); (VStr "sd", sd)]).

(** [exitLossfn_command] (SlatInterpreter.py 301-315).  Simplified: tracing output is left
    out. *)
Definition exit_lossfn (l : list tree) : M unit :=
  id <- the (tok ID l) ;;
  if is_there simple_loss_command l then
    o <- pop ;; d <- pop ;; api "simplelossfn" [VStr id; o; d] ;;; ret tt
  else if is_there bilevel_loss_command l then
    d <- pop ;; api "bilevellossfn" [VStr id; d] ;;; ret tt
  else raise ValueError.

(** [exitCompgroup_command] (SlatInterpreter.py 345-368).  Simplified: tracing output is
    left out; [delay_id and …] tests only that there is one (a name is not empty). *)
Definition exit_compgroup (l : list tree) : M unit :=
  g <- the (node group_id l) ;;
  e <- the (node edp_id l) ;;
  f <- the (node frag_id l) ;;
  c <- the (node cost_id l) ;;
  n <- the (tok INTEGER l) ;;
  let floats := toks FLOAT_VAL l in
  let cost_factor := match nth_error floats 0 with Some x => VFloat x | None => VFloat "1.0" end in
  let delay_factor := match nth_error floats 1 with Some x => VFloat x | None => VFloat "1.0" end in
  e' <- api "edp.lookup" [VStr (texts e)] ;;
  f' <- api "fragfn.lookup" [VStr (texts f)] ;;
  c' <- api "lossfn.lookup" [VStr (texts c)] ;;
  d' <- match node delay_id l with
        | Some d => api "lossfn.lookup" [VStr (texts d)]
        | None => ret VNone
        end ;;
  api "compgroup" [VStr (texts g); e'; f'; c'; d'; VInt (int_of n); cost_factor; delay_factor] ;;;
  ret tt.

(** [exitStructure_command] (SlatInterpreter.py 372-380).  Simplified: tracing output is
    left out. *)
Definition exit_structure (l : list tree) : M unit :=
  id <- the (tok ID l) ;;
  s <- api "structure" [VStr id] ;;
  ids <- the (node id_list l) ;;
  for_each (toks ID ids) (fun g =>
    attr s ;;;
    c <- api "compgroup.lookup" [VStr g] ;;
    api "structure.AddCompGroup" [s; c] ;;; ret tt).

(** The text of the titles (SlatInterpreter.py 429-431). *)
Definition title_text (l : list string) : string :=
  fold_left (fun s t => append s (append (String (ascii_of_nat 10) "") t)) l "".

(** [exitPrint_command] (SlatInterpreter.py 400-446).  Simplified: making the text of the
    object, opening the file and writing are one call, given the name of the file or
    nothing, whether to append, and the object. *)
Definition exit_print (l : list tree) : M unit :=
  o <- (if is_there print_options l then pop else ret VNone) ;;
  v <- (if is_there print_message l then pop
        else match node print_function l with
             | Some f =>
                 id <- the (tok ID f) ;;
                 if has DETFN f then api "detfn.lookup" [VStr id]
                 else if has PROBFN f then api "probfn.lookup" [VStr id]
                 else if has IM f then api "im.lookup" [VStr id]
                 else if has EDP f then api "edp.lookup" [VStr id]
                 else if has FRAGFN f then api "fragfn.lookup" [VStr id]
                 else if has LOSSFN f then api "lossfn.lookup" [VStr id]
                 else if has COMPGROUP f then api "compgroup.lookup" [VStr id]
                 else ret (VStr "unknown")
             | None =>
                 if is_there print_title l then
                   fun s => ret (VStr (title_text (titles (body s)))) s
                 else raise ValueError
             end) ;;
  match o with
  | VNone => api "print" [VNone; VBool false; v] ;;; ret tt
  | _ => f <- key o "filename" ;; a <- key o "append" ;; api "print" [f; a; v] ;;; ret tt
  end.

(** [exitPrint_message] (SlatInterpreter.py 449-458). *)
Definition exit_message (l : list tree) : M unit :=
  v <- (if is_there python_script l then pop
        else if is_there var_ref l then pop
        else match tok STRING l with
             | Some s => ret (VStr (preprocess_string s))
             | None => ret (VStr "")
             end) ;;
  push v.

(** [exitPrint_options] (SlatInterpreter.py 462-474). *)
Definition exit_print_options (l : list tree) : M unit :=
  f <- (if is_there file_spec l then f <- file_text l ;; ret (VStr f) else ret VNone) ;;
  push (VDict [(VStr "filename", f); (VStr "append", VBool (has APPEND_OPTION l))]).

(** [exitIntegration_command] (SlatInterpreter.py 477-511). *)
Definition exit_integration (l : list tree) : M unit :=
  match node integration_search_option l with
  | Some o =>
      m <- (if has BINARY o then ret BINARY_SUBDIVISION
            else if has REVBIN o then ret REVERSE_BINARY_SUBDIVISION
            else if has LOWREV o then ret LOW_FIRST_REVERSE_BINARY_SUBDIVISION
            else if has SCATTERED o then ret C_SCATTERED
            else if has DIRECTED o then ret C_DIRECTED
            else raise ValueError) ;;
      api "Set_Integration_Method" [VConst m] ;;;
      match tok INTEGER o with
      | Some s => api "Set_Integration_Search_Limit" [VStr s] ;;; ret tt
      | None => v <- pop ;; api "Set_Integration_Search_Limit" [v] ;;; ret tt
      end
  | None => ret tt
  end ;;;
  m <- the (node integration_method l) ;;
  (if has MAQ m then ret tt else raise ValueError) ;;;
  precision <- pop ;;
  iterations <- match tok INTEGER l with Some s => ret (VInt (int_of s)) | None => pop end ;;
  api "IntegrationSettings" [precision; iterations] ;;; ret tt.

(** The columns of [--annual] (SlatInterpreter.py 582-598): the loop over the dictionary;
    [last] is the local variable [c], which is unset at first and keeps its value. *)
Fixpoint annual_cols (d : list (value * value)) (last : option string) (cols : list string)
  : M (list string) :=
  match d with
  | [] => ret cols
  | (k, v) :: d =>
      let c :=
        match k, v with
        | VStr "mu", VConst C_MEAN_LN_X => Some "mean_ln_x"
        | VStr "mu", VConst C_MEAN_X => Some "mean_x"
        | VStr "mu", VConst C_MEDIAN_X => Some "median_x"
        | VStr "sd", VConst C_SD_LN_X => Some "sd_ln_x"
        | VStr "sd", VConst C_SD_X => Some "sd_x"
        | _, _ => last
        end in
      match k with
      | VStr "mu" | VStr "sd" =>
          match c with Some s => annual_cols d c (cols ++ [s]) | None => raise UnboundLocalError end
      | _ => annual_cols d c cols
      end
  end.

(** The kind of object a recorder of a type is given (SlatInterpreter.py 602-620). *)
Definition recorder_lookup (ty : string) : option string :=
  if existsb (String.eqb ty) ["dsrate"; "dsedp"; "dsim"] then Some "compgroup.lookup"
  else if String.eqb ty "detfn" then Some "detfn.lookup"
  else if String.eqb ty "probfn" then Some "probfn.lookup"
  else if existsb (String.eqb ty) ["imrate"; "collapse"; "collrate"] then Some "im.lookup"
  else if existsb (String.eqb ty) ["edpim"; "edprate"] then Some "edp.lookup"
  else if existsb (String.eqb ty)
            ["lossds"; "costedp"; "costim"; "delayedp"; "delayim"; "anncost"; "costrate"]
       then Some "compgroup.lookup"
  else if existsb (String.eqb ty) ["structcost"; "deagg"; "totalcost"; "pdf"]
       then Some "structure.lookup"
  else None.

(** [exitRecorder_command] (SlatInterpreter.py 515-622).  Simplified: tracing output is
    left out. *)
Definition exit_recorder (l : list tree) : M unit :=
  rid <- the (node recorder_id l) ;;
  o <- (if is_there print_options l then pop else ret (VDict [])) ;;
  cols <- (if is_there recorder_cols l then pop else ret VNone) ;;
  at_ <- (if is_there recorder_at l then pop else ret VNone) ;;
  ty <- match node recorder_type l with
        | Some t => ret (texts t)
        | None =>
            if has DSRATE l then ret "dsrate"
            else if has COSTRATE l then ret "costrate"
            else if has TOTALCOST l then ret "totalcost"
            else if has COLLAPSE l then ret "collapse"
            else if has COLLRATE l then ret "collrate"
            else if has STRUCTCOST l then ret "structcost"
            else if has DEAGG l then ret "deagg"
            else if has PDF l then ret "pdf"
            else raise ValueError
        end ;;
  let o := if String.eqb ty "pdf" && has NORMALISE_FLAG l
           then set_key o "normalise" (VBool true) else o in
  x <- (if String.eqb ty "structcost" then
          let o := match node structcost_type l with
                   | Some t =>
                       let o := if has BY_FATE_FLAG t then set_key o "structcost-type" (VStr "by-fate")
                                else if has BY_EDP_FLAG t then set_key o "structcost-type" (VStr "by-edp")
                                else o in
                       if has BY_FRAG_FLAG t then set_key o "structcost-type" (VStr "by-frag") else o
                   | None => o
                   end in
          if has NPV_FLAG l then
            let o := set_key o "structcost-type" (VStr "npv") in
            r <- the (tok FLOAT_VAL l) ;;
            let o := set_key o "discount-rate" (VFloat r) in
            first <- the (nth_error (toks INTEGER l) 0) ;;
            step <- the (nth_error (toks INTEGER l) 1) ;;
            last <- the (nth_error (toks INTEGER l) 2) ;;
            years <- py_range (int_of first) (int_of last) (int_of step) ;;
            ret (o, cols, VList years)
          else if has ANNUAL_FLAG l then
            let o := set_key o "structcost-type" (VStr "annual") in
            d <- pop ;;
            names <- match d with VDict d => annual_cols d None [] | _ => raise AttributeError end ;;
            ret (o, VList (map VStr (sort_names names)), at_)
          else ret (o, cols, at_)
        else ret (o, cols, at_)) ;;
  let '(o, cols, at_) := x in
  id <- the (tok ID l) ;;
  f <- match recorder_lookup ty with Some f => ret f | None => raise ValueError end ;;
  fn <- api f [VStr id] ;;
  api "MakeRecorder" [VStr (texts rid); VStr ty; fn; o; cols; at_] ;;; ret tt.

(** [exitRecorder_at] (SlatInterpreter.py 625-634). *)
Definition exit_at (l : list tree) : M unit :=
  match toks FLOAT_VAL l with
  | [] => ret tt
  | [a; b; c] => v <- api "frange" [VFloat a; VFloat c; VFloat b] ;; push v
  | _ => raise ValueError
  end.

(** [exitCounted_at] (SlatInterpreter.py 636-647). *)
Definition exit_counted (l : list tree) : M unit :=
  a <- the (nth_error (toks FLOAT_VAL l) 0) ;;
  b <- the (nth_error (toks FLOAT_VAL l) 1) ;;
  n <- the (tok INTEGER l) ;;
  if has LINFLAG l then v <- api "linrange" [VFloat a; VFloat b; VInt (int_of n)] ;; push v
  else if has LOGFLAG l then v <- api "logrange" [VFloat a; VFloat b; VInt (int_of n)] ;; push v
  else raise ValueError.

(** [exitFloat_array] (SlatInterpreter.py 651-656). *)
Definition exit_floats (l : list tree) : M unit := push (VList (map VFloat (toks FLOAT_VAL l))).

(** [exitCol_spec] (SlatInterpreter.py 659-664). *)
Definition exit_col (l : list tree) : M unit :=
  match node placement_type l with
  | Some t => push (VStr (texts t))
  | None => match node spread_type l with Some t => push (VStr (texts t)) | None => ret tt end
  end.

(** [exitPython_script] (SlatInterpreter.py 676-680). *)
Definition exit_script (l : list tree) : M unit :=
  e <- the (node python_expression l) ;;
  v <- api "eval" [VStr (texts e)] ;;
  push v.

(** [exitAnalyze_command] (SlatInterpreter.py 684-688). *)
Definition exit_analyze : M unit :=
  rs <- api "recorder.all" [] ;;
  match rs with
  | VList rs => for_each rs (fun r => attr r ;;; api "recorder.run" [r] ;;; ret tt)
  | _ => raise TypeError
  end.

(** [self._variables\[id\] = value] (SlatInterpreter.py 694). *)
Fixpoint set_var (x : string) (v : value) (l : list (string * value)) : list (string * value) :=
  match l with
  | [] => [(x, v)]
  | (y, w) :: l => if String.eqb x y then (x, v) :: l else (y, w) :: set_var x v l
  end.

(** [exitSet_command] (SlatInterpreter.py 691-694). *)
Definition exit_set (l : list tree) : M unit :=
  id <- the (tok ID l) ;;
  v <- pop ;;
  fun s => let c := body s in
    Ok tt (St (Core (set_var id v (vars c)) (titles c) (outside c)) (stack s) (stacks s)).

(** [exitImportprobfn_command] and [exitImportimfn_command] (SlatInterpreter.py 697-705). *)
Definition exit_import (f : string) (l : list tree) : M unit :=
  id <- the (tok ID l) ;;
  name <- file_text l ;;
  api f [VStr id; VStr (strip_quotes name)] ;;; ret tt.

(** [exitInputdir_command] and [exitOutputdir_command] (SlatInterpreter.py 721-727). *)
Definition exit_dir (f : string) (l : list tree) : M unit :=
  name <- file_text l ;;
  api f [VStr (strip_quotes name)] ;;; ret tt.

(** [exitLog_command] (SlatInterpreter.py 707-713). *)
Definition exit_log (l : list tree) : M unit :=
  (if has STDERR_FLAG l then api "LogToStdErr" [VBool true] ;;; ret tt else ret tt) ;;;
  (if has NOSTDERR_FLAG l then api "LogToStdErr" [VBool false] ;;; ret tt else ret tt) ;;;
  match node file_spec l with
  | Some f => api "SetLogFile" [VStr (texts f)] ;;; ret tt
  | None => ret tt
  end.

(** [exitIntstats_command] (SlatInterpreter.py 715-719). *)
Definition exit_intstats (l : list tree) : M unit :=
  (if has PRINT l then
     t <- api "Format_Statistics" [] ;; api "print" [VNone; VBool false; t] ;;; ret tt
   else ret tt) ;;;
  (if has RESET l then api "Reset_Statistics" [] ;;; ret tt else ret tt).

(** [exitCommand] (SlatInterpreter.py 69-73). *)
Definition exit_command : M unit :=
  fun s =>
    match stack s, stacks s with
    | [], [] => Ok tt s
    | _, _ => Raise ValueError (body s)
    end.

(** The [enter…] handlers: [enterCommand] empties the stack, some rules open a list
    (SlatInterpreter.py 64-65, 105-106, 173-174, 182-183, 318-319, 327-328, 336-337,
    667-668). *)
Definition enter (r : rule) : M unit :=
  match r with
  | command => fun s => Ok tt (St (body s) [] (stacks s))
  | loglog_args | parameter_array | parameter_dictionary | scalar2_sequence | bilevel_spec
  | bilevel_spec_sequence | recorder_cols => push_stack
  | _ => ret tt
  end.

(** The [exit…] handlers (SlatInterpreter.py 69-727); a rule without one does nothing. *)
Definition exit (r : rule) (l : list tree) : M unit :=
  match r with
  | command => exit_command
  | title_command => exit_title l
  | detfn_command => exit_detfn l
  | loglog_args => exit_loglog
  | scalar => exit_scalar l
  | scalar2 => exit_scalar2
  | scalar3 => exit_scalar3
  | var_ref => exit_var_ref l
  | numerical_scalar => exit_numerical l
  | parameter => exit_parameter l
  | parameter_array | scalar2_sequence | bilevel_spec | bilevel_spec_sequence | recorder_cols =>
      exit_list
  | parameter_dictionary => exit_dictionary
  | dictionary_entry => exit_entry l
  | probfn_command => exit_probfn l
  | im_command => exit_im l
  | collapse_command => exit_im_dist "im.SetCollapse" l
  | demolition_command => exit_im_dist "im.SetDemolition" l
  | rebuildcost_command => exit_structure_dist "structure.setRebuildCost" l
  | demolitioncost_command => exit_structure_dist "structure.setDemolitionCost" l
  | edp_command => exit_edp l
  | fragfn_command => exit_fragfn l
  | fragfn_db_params => exit_db_params l
  | lognormal_options => exit_options l
  | lossfn_command => exit_lossfn l
  | compgroup_command => exit_compgroup l
  | structure_command => exit_structure l
  | print_command => exit_print l
  | print_message => exit_message l
  | print_options => exit_print_options l
  | integration_command => exit_integration l
  | recorder_command => exit_recorder l
  | recorder_at => exit_at l
  | counted_at => exit_counted l
  | float_array => exit_floats l
  | col_spec => exit_col l
  | python_script => exit_script l
  | analyze_command => exit_analyze
  | set_command => exit_set l
  | importprobfn_command => exit_import "ImportProbFn" l
  | importimfn_command => exit_import "ImportIMFn" l
  | log_command => exit_log l
  | intstats_command => exit_intstats l
  | inputdir_command => exit_dir "set_input_directory" l
  | outputdir_command => exit_dir "set_output_directory" l
  | _ => ret tt
  end.

(** The walk (antlr4 ParseTreeWalker; SlatInterpreter.py 743-745). *)
Fixpoint walk (t : tree) : M unit :=
  match t with
  | Leaf _ _ => ret tt
  | Node r l =>
      enter r ;;;
      (fix walks (l : list tree) : M unit :=
         match l with [] => ret tt | t :: l => walk t ;;; walks l end) l ;;;
      exit r l
  end.

(** A new interpreter walks a script (SlatInterpreter.py 44-49, 743-745). *)
Definition run (t : tree) (w : world) : res unit := walk t (St (Core [] [] w) [] []).

End Interpreter.
