(** * Property C70: strings in scripts stand for what the manual says *)
From Coq Require Import Ascii String List.
From Verif Require Import Interp Literal Literal_spec Literal_proofs.
Import ListNotations.
Local Open Scope list_scope.

(** Full statement: a string is read up to its closing quote, and stands for its
    characters, escapes replaced.  False: of the manual's fourth example the last
    quote is lost; an escaped quote at the end becomes a backslash; and after a
    single-quoted string that ends in a backslash, the script up to the next quote is
    taken to be part of it. *)
Theorem C70_literal_refuted : exists b m c m' d m'' r,
  (written Double b m /\ b = text "Example 4--'in either order'" /\ value_of (literal Double b) = text "Example 4--'in either order") /\
  (written Single c m' /\ m' = text "the owners'" /\ value_of (literal Single c) = text "the owners\") /\
  (written Single d m'' /\ m'' = text "C:\" /\ r = text "; title 'x';" /\
   lex_string (literal Single d ++ r) = Some (literal Single d ++ text "; title '", text "x';")).
Proof. exact refute_literal. Qed.
Print Assumptions C70_literal_refuted.

(** True of strings that neither begin nor end with a quote, and if single-quoted and
    ending in a backslash, have no single quote after them. *)
Theorem C70_literal_partial : forall q b m r, written q b m -> ~ starts_with_quote b -> ~ ends_with_quote b ->
  ~ (q = Single /\ ends_with_backslash b /\ In "'"%char r) ->
  exists t, lex_string (literal q b ++ r) = Some (t, r) /\ value_of t = m.
Proof. exact literal_read. Qed.
Print Assumptions C70_literal_partial.

Example C70_case : exists t, lex_string (literal Single (text "can escape \' and \\.") ++ text "; title 'x';") = Some (t, text "; title 'x';") /\
  value_of t = text "can escape ' and \.".
Proof. exact literal_case. Qed.

(** Of no others: a string that begins or ends with a quote stands for something
    else, *)
Theorem C70_value : forall q b m, written q b m ->
  (value_of (literal q b) = m <-> ~ starts_with_quote b /\ ~ ends_with_quote b).
Proof. exact valued. Qed.
Print Assumptions C70_value.

(** and the end is found in all cases but one, *)
Theorem C70_end : forall q b m r, written q b m ->
  (lex_string (literal q b ++ r) = Some (literal q b, r) <-> ~ (q = Single /\ ends_with_backslash b /\ In "'"%char r)).
Proof. exact lexed. Qed.
Print Assumptions C70_end.

(** in which some of what follows is swallowed. *)
Theorem C70_end_fails : forall b m r, written Single b m -> ends_with_backslash b -> In "'"%char r ->
  exists more rest, lex_string (literal Single b ++ r) = Some (literal Single b ++ more, rest) /\
    more <> [] /\ r = more ++ rest.
Proof. exact swallowed. Qed.
Print Assumptions C70_end_fails.
