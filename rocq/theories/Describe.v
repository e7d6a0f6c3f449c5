(** * What 'print' says of definitions, and where it goes

    Sources: the methods [__str__] of /repo/src/pyslat.py (421-425, 546-551, 685-689,
    839-841, 916-917, 939-943, 1028-1029, 1065-1066, 1230-1239);
    /repo/src/SlatInterpreter.py 400-447 (print), 76-77 (title).

    Simplifications:
    - names are strings (from Python they may be any objects);
    - of the floats of Python only the way in which they are shown matters, a parameter;
      strings within lists are shown without regard to quotes in them;
    - a file written to is complete once the command is done (CPython closes it then; it is not
      closed at SlatInterpreter.py 439-445);
    - what the interpreter prints for other commands (e.g. SlatInterpreter.py 303-310) is left
      out; opening a file always succeeds. *)
From Coq Require Import ZArith Ascii String List Bool DecimalString.
From Verif Require Import Paths.
Import ListNotations.
Local Open Scope string_scope.

(** [str.format] with fields "{}" (used at pyslat.py 423, 546 and so on): with too few
    arguments it raises, arguments too many are ignored. *)
Fixpoint fmt (t : string) (args : list string) : option string :=
  match t with
  | EmptyString => Some EmptyString
  | String "{" (String "}" r) =>
      match args with
      | a :: args => option_map (append a) (fmt r args)
      | [] => None
      end
  | String c r => option_map (String c) (fmt r args)
  end.

Section Describe.

(** Floats, and [repr] of them, as used at pyslat.py 940, 1029, 1230. *)
Context {F : Type}.
Variable float_repr : F -> string.
(** Distributions, and [str] of the objects which SWIG wraps around them: it tells class and
    address only; pyslat.py 687. *)
Context {D : Type}.
Variable proxy : nat -> string.

(** Values that can be part of a definition: [None], integers, floats, strings, lists and
    dictionaries with strings as keys (SlatInterpreter.py 140-190, 254-299). *)
Inductive pyv :=
| PNone
| PInt (z : Z)
| PFloat (a : F)
| PText (s : string)
| PList (l : list pyv)
| PDict (l : list (string * pyv)).

(** With separators between, as Python shows lists (pyslat.py 940, 1029). *)
Fixpoint commas (l : list string) : string :=
  match l with
  | [] => ""
  | [a] => a
  | a :: r => a ++ ", " ++ commas r
  end.

(** A string in quotes (Python's [repr]; keys at SlatInterpreter.py 264, 299). *)
Definition quoted (s : string) : string := "'" ++ s ++ "'".

(** [repr] (pyslat.py 940-943, 1029). *)
Fixpoint repr (v : pyv) : string :=
  match v with
  | PNone => "None"
  | PInt z => NilZero.string_of_int (Z.to_int z)
  | PFloat a => float_repr a
  | PText s => quoted s
  | PList l => "[" ++ commas (map repr l) ++ "]"
  | PDict l => "{" ++ commas (map (fun e => quoted (fst e) ++ ": " ++ repr (snd e)) l) ++ "}"
  end.

(** [str]: as [repr], but for strings (str.format uses it; pyslat.py 546). *)
Definition str (v : pyv) : string := match v with PText s => s | _ => repr v end.

(** A collapse distribution as set, and the address of its wrapper (pyslat.py 651-653). *)
Record collapse := Collapse { c_dist : D; c_address : nat }.

(** The attributes of the Python objects that can be printed; of objects they refer to, the
    names ([id()]) at the time of their definition, for which see C87. *)
Inductive thing :=
| Det (id type : string) (params : pyv)                  (* pyslat.py 389-391 *)
| Prob (id type mufn : string) (mu : pyv) (sdfn : string) (sd : pyv) (* pyslat.py 468-471 *)
| Im (id fn : string) (col : option collapse)            (* pyslat.py 584-588 *)
| Edp (id im fn : string) (fn2 : option string)          (* pyslat.py 718-724 *)
| FragDb (id : string) (params : pyv)                    (* pyslat.py 912-914 *)
| FragUser (id : string) (options scalars : pyv)         (* pyslat.py 931-938 *)
| LossSimple (id : string) (options data : pyv)          (* pyslat.py 1013-1025 *)
| LossBilevel (id : string) (data : pyv)                 (* pyslat.py 1046-1062 *)
| Group (id edp frag : string) (cost delay : option string) (count : Z)
        (cost_adj delay_adj : pyv).                      (* pyslat.py 1107-1115 *)

(** [x and x.id()] (pyslat.py 1235-1236). *)
Definition name_or_none (x : option string) : string := match x with Some s => s | None => "None" end.

(** [__str__] of [detfn] (pyslat.py 421-425): [format] applies to the second of the two
    strings that are joined. *)
Definition describe_det (id type : string) (params : pyv) : option string :=
  option_map (append "Deterministic Function '{}', of type '{}', ")
    (fmt "from parameters {}." [id; type; str params]).

(** The other methods [__str__]. pyslat.py 546-551, 685-689, 839-841, 916-917, 939-943,
    1028-1029, 1065-1066, 1230-1239. *)
Definition describe (t : thing) : option string :=
  match t with
  | Det id type params => describe_det id type params
  | Prob id type mufn mu sdfn sd =>
      fmt ("Probabilistic function '{}' of type {}, using the deterministic function {} for {}, and " ++
           "the deterministic function {} for {}.") [id; type; mufn; str mu; sdfn; str sd]
  | Im id fn (Some c) => (* the function is shown in full; its type and parameters are not needed for that, see [describe_det] *)
      match describe_det fn "" PNone with
      | Some d => fmt "Intensity measure '{}', based on the deterministic function '{}', with {}"
                    [id; d; proxy (c_address c)]
      | None => None
      end
  | Im id fn None => fmt "Intensity measure '{}', based on the deterministic function '{}'." [id; fn]
  | Edp id im fn _ =>
      fmt ("Engineering Demand Parameter '{}' using the intensity measure '{}', and " ++
           "the probabilistic function {}.") [id; im; fn]
  | FragDb id params => fmt "Fragility Function '{}', from database: {}." [id; str params]
  | FragUser id options scalars =>
      fmt "User-defined Fragility Function '{}', built from {} using options '{}'." [id; str scalars; str options]
  | LossSimple id options data => fmt "Loss Function '{}', from {} as {}." [id; str data; str options]
  | LossBilevel id data => fmt "Loss Function '{}', from {} as {}." [id; str data; "None"]
  | Group id edp frag cost delay count cost_adj delay_adj =>
      fmt "Component Group '{}' using {}, {}, {}, and {} ({} component(s); adjustments: {} and {})"
        [id; edp; frag; name_or_none cost; name_or_none delay; str (PInt count); str cost_adj; str delay_adj]
  end.

(** ** Printing *)

(** What can be printed (SlatInterpreter.py 406-435): a message, the object found under a
    name, if any, or the title with its lines so far. *)
Inductive printed := PrMessage (m : string) | PrObject (o : option thing) | PrTitle (l : list string).

(** The line feed of SlatInterpreter.py 431. *)
Definition newline : string := String "010" "".

(** The loop over the lines of the title (SlatInterpreter.py 429-431). *)
Definition title_text (l : list string) : string := fold_left (fun o t => o ++ newline ++ t) l "".

(** [message] (SlatInterpreter.py 406-435); [None] if an object cannot be shown. *)
Definition message (p : printed) : option string :=
  match p with
  | PrMessage m => Some m
  | PrObject None => Some "None"
  | PrObject (Some t) => describe t
  | PrTitle l => Some (title_text l)
  end.

(** The terminal, and the files with their contents (SlatInterpreter.py 437-447). *)
Record output := Output { terminal : string; contents : string -> option string }.

(** The options of a print command: without them, to the terminal; else a file name and
    whether to append (SlatInterpreter.py 437-442, 461-474). *)
Definition target := option (string * bool).

(** [print(message)] there (SlatInterpreter.py 437-447): the name is opened as it is. *)
Definition put (o : output) (d : target) (m : string) : output :=
  match d with
  | None => Output (terminal o ++ m ++ newline) (contents o)
  | Some (f, app) =>
      Output (terminal o)
        (fun g => if String.eqb g f then
                    Some ((if app then match contents o f with Some s => s | None => "" end else "") ++ m ++ newline)
                  else contents o g)
  end.

(** The paths opened for a file name, by printing (SlatInterpreter.py 437-442) and by the
    recorders (pyslat.py 1684-1689). *)
Definition print_path (set : option path) (name : path) : path := name.
(** See above; pyslat.py 1684-1689. *)
Definition recorder_path (set : option path) (name : path) : path := full_path set name.

(** exitPrint_command (SlatInterpreter.py 400-447); [None]: an exception. *)
Definition print (o : output) (c : printed * target) : option output :=
  option_map (put o (snd c)) (message (fst c)).

(** Several of them, one after the other (SlatInterpreter.py 400-447). *)
Fixpoint prints (o : output) (l : list (printed * target)) : option output :=
  match l with
  | [] => Some o
  | c :: r => match print o c with Some o => prints o r | None => None end
  end.

End Describe.

Arguments PNone {F}. Arguments PInt {F}. Arguments PText {F}.
