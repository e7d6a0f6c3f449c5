(** * What strings in scripts stand for

    As in the manual (slat-lang.org 133-149, 1495-1499), independent of the model's
    functions. *)
From Coq Require Import Ascii List.
From Verif Require Import Literal.
Import ListNotations.
Local Open Scope char_scope.

(** Between quotes [q], the text [b] stands for [m]: characters for themselves,
    except that a backslash stands for the quote or backslash after it. *)
Inductive written (q : quote) : list ascii -> list ascii -> Prop :=
| written_end : written q [] []
| written_plain : forall c b m, c <> mark q -> c <> "\" -> written q b m -> written q (c :: b) (c :: m)
| written_quote : forall b m, written q b m -> written q ("\" :: mark q :: b) (mark q :: m)
| written_backslash : forall b m, written q b m -> written q ("\" :: "\" :: b) ("\" :: m).

(** The literal as a whole. *)
Definition literal (q : quote) (b : list ascii) : list ascii := mark q :: b ++ [mark q].

(** Quotes of either kind at the ends. *)
Definition quote_char (c : ascii) : Prop := c = "'" \/ c = """".
Definition starts_with_quote (b : list ascii) : Prop := exists c r, b = c :: r /\ quote_char c.
Definition ends_with_quote (b : list ascii) : Prop := exists c r, b = r ++ [c] /\ quote_char c.
Definition ends_with_backslash (b : list ascii) : Prop := exists r, b = r ++ ["\"].
