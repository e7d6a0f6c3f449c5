(** * How scripts are to be read

    Words, the white space and comments between them, and Python expressions, after the
    manual (slat-lang.org 97-131, 1044-1046, 1478-1500), independent of the lexer's rules. *)
From Coq Require Import Ascii String List Arith.
From Verif Require Import Interp Lexer Literal Literal_spec.
Import ListNotations.
Local Open Scope list_scope.

Notation text := list_ascii_of_string.

(** ** Characters *)
Definition is_letter (c : ascii) : Prop :=
  (65 <= nat_of_ascii c <= 90 \/ 97 <= nat_of_ascii c <= 122)%nat.
Definition is_digit (c : ascii) : Prop := (48 <= nat_of_ascii c <= 57)%nat.
Definition is_blank (c : ascii) : Prop := In c [" "%char; "009"%char; "013"%char; "010"%char].
Definition ends_line (c : ascii) : Prop := In c ["013"%char; "010"%char].
Definition is_sign (c : ascii) : Prop := In c ["+"%char; "-"%char].

(** Characters of names, and of names of files. *)
Definition starts_name (c : ascii) : Prop := is_letter c \/ In c ["_"%char; "."%char].
Definition in_path (c : ascii) : Prop := starts_name c \/ is_digit c \/ c = "/"%char.

(** ** Words *)
Definition is_name (t : list ascii) : Prop :=
  exists c r, t = c :: r /\ starts_name c /\ Forall (fun c => starts_name c \/ is_digit c) r.
Definition is_path (t : list ascii) : Prop := t <> [] /\ Forall in_path t.

(** The usual ways to write a number. *)
Definition digits (t : list ascii) : Prop := t <> [] /\ Forall is_digit t.
Definition sign (t : list ascii) : Prop := t = [] \/ exists c, is_sign c /\ t = [c].
Inductive mantissa : list ascii -> Prop :=
| mantissa_whole : forall a, digits a -> mantissa a
| mantissa_point : forall a, digits a -> mantissa (a ++ ["."%char])
| mantissa_both : forall a b, digits a -> digits b -> mantissa (a ++ "."%char :: b)
| mantissa_fraction : forall b, digits b -> mantissa ("."%char :: b).
Inductive exponent : list ascii -> Prop :=
| exponent_none : exponent []
| exponent_some : forall c s d, In c ["e"%char; "E"%char] -> sign s -> digits d -> exponent (c :: s ++ d).
Definition is_number (t : list ascii) : Prop :=
  exists s m e, sign s /\ mantissa m /\ exponent e /\ t = s ++ m ++ e.

(** The fixed words.  [exact]: the keyword [loglog] with the blank before it. *)
Definition vocabulary (exact : bool) (k : tkind) : option string :=
  match k with
  | Of PYTHON_ESCAPE | Of PYTHON_END | Of PYMODELPAREN | Of NESTEDLPAREN | Of NESTEDRPAREN => None
  | Of LOGLOG => if exact then Some " loglog"%string else Some "loglog"%string
  | Of k => fixed_text k
  | LBRACE => Some "{"%string | RBRACE => Some "}"%string | ANNCOST => Some "anncost"%string
  | COST => Some "cost"%string | DISP => Some "disp"%string | UPPER_COST => Some "upper_cost"%string
  | LOWER_COST => Some "lower_cost"%string | LOWER_N => Some "lower_n"%string
  | UPPER_N => Some "upper_n"%string | MEAN_UNCERT => Some "mean_uncert"%string
  | VAR_UNCERT => Some "var_uncert"%string | LAMBDA_FLAG => Some "--lambda"%string
  | PLUS => Some "+"%string | MINUS => Some "-"%string | STAR => Some "*"%string
  | COMMENT | SINGLE_QUOTED_STRING => None
  end.
Definition reserved (exact : bool) (t : list ascii) : Prop :=
  exists k s, vocabulary exact k = Some s /\ t = text s.

(** A word and what it is. *)
Inductive a_word (exact : bool) : tkind -> list ascii -> Prop :=
| word_fixed : forall k s, vocabulary exact k = Some s -> a_word exact k (text s)
| word_name : forall t, is_name t -> ~ reserved exact t -> a_word exact (Of ID) t
| word_integer : forall t, digits t -> a_word exact (Of INTEGER) t
| word_float : forall t, is_number t -> ~ digits t -> ~ is_name t -> a_word exact (Of FLOAT_VAL) t
| word_file : forall t, is_path t -> ~ is_name t -> ~ is_number t -> a_word exact (Of FILE_NAME) t
| word_string : forall q b m, written q b m -> a_word exact (Of STRING) (literal q b).

(** ** Layout *)

(** What may follow a word directly: after punctuation, anything; after a dollar sign,
    anything but a parenthesis; after a string, anything, except where C70 says its end is
    missed; after other words, what cannot be part of a word. *)
Definition punctuation : list (list ascii) :=
  map text ["{"; "}"; "["; "]"; "("; ")"; ","; ";"; ":"; "*"]%string.
Definition begins_quoted (t : list ascii) : Prop := exists c r, t = c :: r /\ quote_char c.
Inductive separated : list ascii -> list ascii -> Prop :=
| separated_end : forall t, separated t []
| separated_punctuation : forall t s, In t punctuation -> separated t s
| separated_dollar : forall c s, c <> "("%char -> separated ["$"%char] (c :: s)
| separated_string : forall q b s, ~ (q = Single /\ ends_with_backslash b /\ In "'"%char s) ->
    separated (literal q b) s
| separated_gap : forall t c s, ~ begins_quoted t -> t <> ["$"%char] -> ~ in_path c -> ~ is_sign c ->
    separated t (c :: s).

(** Python expressions: parentheses match. *)
Inductive balanced (outer : bool) : list ascii -> list (tkind * list ascii) -> Prop :=
| balanced_end : balanced outer [] []
| balanced_char : forall c e l, c <> "("%char -> c <> ")"%char -> balanced outer e l ->
    balanced outer (c :: e) ((Of (if outer then OTHER else NESTEDOTHER), [c]) :: l)
| balanced_parens : forall e l e' l', balanced false e l -> balanced outer e' l' ->
    balanced outer ("("%char :: e ++ ")"%char :: e')
      ((Of (if outer then PYMODELPAREN else NESTEDLPAREN), text "(") ::
       l ++ (Of NESTEDRPAREN, text ")") :: l').

Definition begins_with (w : list ascii) (s : list ascii) : Prop := exists r, s = w ++ r.

(** A text is a layout of a list of words.  [exact]: no blank before a word that begins
    with [loglog], unless it belongs to that keyword. *)
Inductive laid_out (exact : bool) : list (tkind * list ascii) -> list ascii -> Prop :=
| laid_end : laid_out exact [] []
| laid_blank : forall c ws s, is_blank c ->
    (exact = true -> ~ (c = " "%char /\ begins_with (text "loglog") s)) ->
    laid_out exact ws s -> laid_out exact ws (c :: s)
| laid_comment : forall t ws s, Forall (fun c => ~ ends_line c) t ->
    (s = [] \/ exists c r, s = c :: r /\ ends_line c) ->
    laid_out exact ws s -> laid_out exact ws ("#"%char :: t ++ s)
| laid_word : forall k t ws s, a_word exact k t -> separated t s ->
    laid_out exact ws s -> laid_out exact ((k, t) :: ws) (t ++ s)
| laid_python : forall e l ws s, balanced true e l -> laid_out exact ws s ->
    laid_out exact ((Of PYTHON_ESCAPE, text "$(") :: l ++ (Of PYTHON_END, text ")") :: ws)
      (text "$(" ++ e ++ ")"%char :: s).

(** ** Pieces of the text *)
Definition taken (e : event) : list ascii :=
  match e with Token _ t => t | Skipped t => t | Dropped t => t end.

(** White space or a comment. *)
Definition is_space (t : list ascii) : Prop :=
  (exists c, is_blank c /\ t = [c]) \/ (exists r, t = "#"%char :: r /\ Forall (fun c => ~ ends_line c) r).

(** Characters which begin no word, white space or comment. *)
Definition meaningless (c : ascii) : Prop :=
  ~ in_path c /\ ~ is_sign c /\ ~ is_blank c /\ ~ quote_char c /\
  ~ In c (text "#${}[](),;:*").

Definition nothing_dropped (l : list event) : Prop :=
  Forall (fun e => match e with Dropped _ => False | _ => True end) l.
Definition skips_only_spaces (l : list event) : Prop :=
  Forall (fun e => match e with Skipped t => is_space t | _ => True end) l.

(** What Python takes for an expression, up to the parenthesis that closes it: inside
    quotes, parentheses do not count.  (Strings without backslashes or line ends.)
    [plain]: no parentheses inside quotes. *)
Inductive python_text (plain : bool) : list ascii -> Prop :=
| python_end : python_text plain []
| python_one : forall c e, ~ quote_char c -> c <> "("%char -> c <> ")"%char ->
    python_text plain e -> python_text plain (c :: e)
| python_parens : forall e e', python_text plain e -> python_text plain e' ->
    python_text plain ("("%char :: e ++ ")"%char :: e')
| python_string : forall q b e, Forall (fun c => c <> mark q /\ c <> "\"%char /\ ~ ends_line c) b ->
    (plain = true -> ~ In "("%char b /\ ~ In ")"%char b) ->
    python_text plain e -> python_text plain (literal q b ++ e).

(** The value of a numeral. *)
Definition digit_value (c : ascii) : nat := nat_of_ascii c - 48.
Fixpoint place_value (t : list ascii) : nat :=
  match t with [] => 0 | c :: t => digit_value c * 10 ^ length t + place_value t end.
