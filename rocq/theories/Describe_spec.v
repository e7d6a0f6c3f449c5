(** What printing a definition should show, and what files printed to should hold
    (/repo/slat-lang.org 140-155, 323-374). *)
From Coq Require Import ZArith Ascii String List Bool DecimalString.
From Verif Require Import Paths Describe.
Import ListNotations.
Local Open Scope string_scope.

(** Every character of [s] is one of [p]. *)
Fixpoint every (p : ascii -> bool) (s : string) : bool :=
  match s with EmptyString => true | String c r => p c && every p r end.

Definition between (a b : ascii) (c : ascii) : bool :=
  Nat.leb (nat_of_ascii a) (nat_of_ascii c) && Nat.leb (nat_of_ascii c) (nat_of_ascii b).

Definition digit : ascii -> bool := between "0" "9".

(** Characters of names. *)
Definition wordy (c : ascii) : bool :=
  between "a" "z" c || between "A" "Z" c || digit c || Ascii.eqb c "_".

(** Characters of numbers: those of whole ones, and others, including "inf" and
    "nan". *)
Definition whole (c : ascii) : bool := digit c || Ascii.eqb c "-".
Definition figure (c : ascii) : bool :=
  whole c || existsb (Ascii.eqb c) ["."; "+"; "e"; "i"; "n"; "f"; "a"]%char.

Definition plain (s : string) : Prop := s <> "" /\ every wordy s = true.

Definition quoteless (s : string) : Prop := every (fun c => negb (Ascii.eqb c "'")) s = true.

Section Spec.

Context {F D : Type}.
Variable float_repr : F -> string.
Variable proxy : nat -> string.
Notation pyv := (@pyv F).
Notation thing := (@thing F D).
Notation describe := (@describe F float_repr D proxy).

(** Floats are shown as Python does: differently if they differ, and never like
    whole numbers. *)
Definition shows_floats : Prop :=
  (forall a b, float_repr a = float_repr b -> a = b) /\
  (forall a, every figure (float_repr a) = true /\ every whole (float_repr a) = false).

(** Values without quotes in strings. *)
Inductive tidy : pyv -> Prop :=
| tidy_none : tidy PNone
| tidy_int : forall z, tidy (PInt z)
| tidy_float : forall a, tidy (PFloat a)
| tidy_text : forall s, quoteless s -> tidy (PText s)
| tidy_list : forall l, (forall v, In v l -> tidy v) -> tidy (PList l)
| tidy_dict : forall l, (forall e, In e l -> quoteless (fst e)) -> (forall e, In e l -> tidy (snd e)) -> tidy (PDict l).

(** Values other than strings. *)
Definition value (v : pyv) : Prop := tidy v /\ forall s, v <> PText s.

(** Objects as scripts make them. *)
Definition proper (t : thing) : Prop :=
  match t with
  | Det id type params => plain id /\ value params
  | Prob id type mufn mu sdfn sd => plain id /\ plain type /\ plain mufn /\ value mu /\ plain sdfn /\ value sd
  | Im id fn _ => plain id /\ plain fn
  | Edp id im fn fn2 => plain id /\ plain im /\ plain fn /\ forall x, fn2 = Some x -> plain x
  | FragDb id params => plain id /\ value params
  | FragUser id options scalars => plain id /\ value options /\ value scalars
  | LossSimple id options data => plain id /\ (exists o, options = PDict o) /\ value options /\ value data
  | LossBilevel id data => plain id /\ value data
  | Group id edp frag cost delay count cost_adj delay_adj =>
      plain id /\ plain edp /\ plain frag /\ (forall x, cost = Some x -> plain x) /\ (forall x, delay = Some x -> plain x) /\
      value cost_adj /\ value delay_adj
  end.

(** Which kind of definition it is, and of what name. *)
Inductive sort := SDet | SProb | SIm | SEdp | SFrag | SLoss | SGroup.
Definition sort_of (t : thing) : sort :=
  match t with
  | Det _ _ _ => SDet
  | Prob _ _ _ _ _ _ => SProb
  | Im _ _ _ => SIm
  | Edp _ _ _ _ => SEdp
  | FragDb _ _ | FragUser _ _ _ => SFrag
  | LossSimple _ _ _ | LossBilevel _ _ => SLoss
  | Group _ _ _ _ _ _ _ _ => SGroup
  end.
Definition name_of (t : thing) : string :=
  match t with
  | Det id _ _ | Prob id _ _ _ _ _ | Im id _ _ | Edp id _ _ _ | FragDb id _ | FragUser id _ _
  | LossSimple id _ _ | LossBilevel id _ | Group id _ _ _ _ _ _ _ => id
  end.

(** Those of whose definition nothing is lost in the description: no deterministic
    function, no measure with a collapse distribution, no compound demand
    parameter, no loss function named "None" in a group. *)
Definition clear (t : thing) : Prop :=
  match t with
  | Det _ _ _ => False
  | Im _ _ (Some _) => False
  | Edp _ _ _ (Some _) => False
  | Group _ _ _ cost delay _ _ _ => cost <> Some "None" /\ delay <> Some "None"
  | _ => True
  end.

(** The description, part by part. *)
Definition told (t : thing) : string :=
  match t with
  | Det id type params =>
      "Deterministic Function '" ++ id ++ "', of type '" ++ type ++ "', from parameters " ++ repr float_repr params ++ "."
  | Prob id type mufn mu sdfn sd =>
      "Probabilistic function '" ++ id ++ "' of type " ++ type ++ ", using the deterministic function " ++ mufn ++ " for " ++
      repr float_repr mu ++ ", and the deterministic function " ++ sdfn ++ " for " ++ repr float_repr sd ++ "."
  | Im id fn _ => "Intensity measure '" ++ id ++ "', based on the deterministic function '" ++ fn ++ "'."
  | Edp id im fn _ =>
      "Engineering Demand Parameter '" ++ id ++ "' using the intensity measure '" ++ im ++
      "', and the probabilistic function " ++ fn ++ "."
  | FragDb id params => "Fragility Function '" ++ id ++ "', from database: " ++ repr float_repr params ++ "."
  | FragUser id options scalars =>
      "User-defined Fragility Function '" ++ id ++ "', built from " ++ repr float_repr scalars ++ " using options '" ++
      repr float_repr options ++ "'."
  | LossSimple id options data =>
      "Loss Function '" ++ id ++ "', from " ++ repr float_repr data ++ " as " ++ repr float_repr options ++ "."
  | LossBilevel id data => "Loss Function '" ++ id ++ "', from " ++ repr float_repr data ++ " as None."
  | Group id edp frag cost delay count cost_adj delay_adj =>
      "Component Group '" ++ id ++ "' using " ++ edp ++ ", " ++ frag ++ ", " ++
      match cost with Some c => c | None => "None" end ++ ", and " ++ match delay with Some d => d | None => "None" end ++
      " (" ++ repr float_repr (PInt count) ++ " component(s); adjustments: " ++ repr float_repr cost_adj ++ " and " ++
      repr float_repr delay_adj ++ ")"
  end.

(** ** Where printed text goes *)

(** The text of a command: a message as it is, "None" for an unknown name, the lines
    of the title after an empty one. *)
Definition text (p : @printed F D) (m : string) : Prop :=
  match p with
  | PrMessage t => m = t
  | PrObject (Some t) => describe t = Some m
  | PrObject None => m = "None"
  | PrTitle l => m = String.concat newline ("" :: l)
  end.

(** Texts on lines of their own. *)
Definition lines (l : list string) : string := String.concat "" (map (fun m => m ++ newline) l).

(** The texts of the commands without a file. *)
Definition to_terminal (l : list (string * target)) : list string :=
  flat_map (fun c => match c with (m, None) => [m] | _ => [] end) l.

(** The texts printed to a file since it was last started afresh; the latest
    command comes first. *)
Fixpoint since (f : string) (l : list (string * target)) : list string :=
  match l with
  | [] => []
  | (m, Some (g, app)) :: r => if String.eqb g f then m :: (if app then since f r else []) else since f r
  | (_, None) :: r => since f r
  end.

(** Some command before started the file afresh. *)
Definition restarted (f : string) (l : list (string * target)) : Prop := exists m, In (m, Some (f, false)) l.

(** No command before used the file. *)
Definition untouched (f : string) (l : list (string * target)) : Prop := forall m app, ~ In (m, Some (f, app)) l.

End Spec.

(** Two paths lead to one file: they are alike, or the second starts from the
    current directory. *)
Definition same_file (p q : path) : Prop := q = p \/ q = (lit "./" ++ p)%list.
