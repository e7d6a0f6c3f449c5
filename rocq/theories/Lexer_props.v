(** * Properties C75–C78: reading scripts

    C75: how a script is laid out does not matter.  C76: numbers.  C77: Python expressions.
    C78: nothing in a script is passed over. *)
From Coq Require Import Ascii String List Bool Arith ZArith Lia.
From Verif Require Import Interp Lexer Literal Literal_spec Lexer_spec Lexer_proofs4 Lexer_proofs5 Lexer_proofs6.
Import ListNotations.
Local Open Scope list_scope.

(** C75.  Full statement: [forall ws s, laid_out false ws s -> tokens (fst (read s)) = ws]:
    any text that consists of words, with blanks, line ends and comments between them, is
    read as those words.  False: the blank before [loglog] belongs to the keyword.  After a
    tab or a line end, [loglog] is a name; and a name that begins with [loglog] is read as
    the keyword and another name when a blank stands before it. *)
Theorem C75_layout_refuted : exists ws s ws' s',
  (laid_out false ws s /\ In (Of LOGLOG, text "loglog") ws /\ ~ In (Of LOGLOG) (map fst (tokens (fst (read s))))) /\
  (laid_out false ws' s' /\ length (tokens (fst (read s'))) <> length ws').
Proof. exact refute_layout. Qed.
Print Assumptions C75_layout_refuted.

(** With the keyword spelt [" loglog"], and no other word beginning with those letters after
    a blank, texts are read as the words they consist of, whatever the layout; nothing is
    passed over. *)
Theorem C75_layout_partial : forall ws s, laid_out true ws s ->
  tokens (fst (read s)) = ws /\ nothing_dropped (fst (read s)) /\ snd (read s) = AtEnd.
Proof. exact read_laid. Qed.
Print Assumptions C75_layout_partial.

(** Two layouts of two commands, with a comment, a string and an expression. *)
Example C75_case :
  laid_out true example_words (text "set x $(a(b));title't';") /\
  laid_out true example_words (text "set x" ++ "009"%char :: text "# the value" ++ "010"%char :: text "  $(a(b));title 't';" ++ ["010"%char]).
Proof.
  split.
  - fixed (Of SET) "set"%string. blank. name "x"%string. blank. the_expression.
    fixed (Of SEMICOLON) ";"%string. fixed (Of TITLE) "title"%string. the_string. fixed (Of SEMICOLON) ";"%string. constructor.
  - fixed (Of SET) "set"%string. blank. name "x"%string. blank.
    apply (laid_comment true (text " the value")).
    + repeat constructor; cbn; intuition discriminate.
    + right. do 2 eexists. split; [reflexivity|cbn; tauto].
    + blank. blank. blank. the_expression.
      fixed (Of SEMICOLON) ";"%string. fixed (Of TITLE) "title"%string. blank. the_string. fixed (Of SEMICOLON) ";"%string. blank. constructor.
Qed.

(** C76.  Full statement: every number, written in any of the usual ways, is read as a
    number.  False: [.5] is read as a name. *)
Theorem C76_number_refuted : exists t s, is_number t /\ separated t s /\
  tokens (fst (read (t ++ s))) = (Of ID, t) :: tokens (fst (read s)).
Proof. exact refute_number. Qed.
Print Assumptions C76_number_refuted.

(** Every number that does not begin with its point, or has a sign somewhere, is read as a
    number: an integer if digits only. *)
Theorem C76_number_partial : forall t s, is_number t ->
  ~ ((exists r, t = "."%char :: r) /\ Forall (fun c => ~ is_sign c) t) -> separated t s ->
  exists k, (k = INTEGER /\ digits t \/ k = FLOAT_VAL /\ ~ digits t) /\
    tokens (fst (read (t ++ s))) = (Of k, t) :: tokens (fst (read s)).
Proof. exact number_read. Qed.
Print Assumptions C76_number_partial.
Example C76_case : is_number (text "-1.5e+3") /\ ~ (exists r, text "-1.5e+3" = "."%char :: r) /\ separated (text "-1.5e+3") (text ", 2").
Proof.
  refine (conj _ (conj _ _)).
  - exists (text "-"), (text "1.5"), (text "e+3"). refine (conj _ (conj _ (conj _ eq_refl))).
    + right. exists "-"%char. split; [cbn; tauto|reflexivity].
    + apply (mantissa_both (text "1") (text "5")); apply digits_sound; discriminate || reflexivity.
    + apply (exponent_some "e" (text "+") (text "3")); [cbn; tauto| |apply digits_sound; discriminate || reflexivity].
      right. exists "+"%char. split; [cbn; tauto|reflexivity].
  - intros (r & E). discriminate.
  - apply gap_sound; [reflexivity|discriminate|reflexivity].
Qed.

(** All others are read as names. *)
Theorem C76_point_fails : forall t s, is_number t -> (exists r, t = "."%char :: r) -> Forall (fun c => ~ is_sign c) t ->
  separated t s -> tokens (fst (read (t ++ s))) = (Of ID, t) :: tokens (fst (read s)).
Proof. exact number_name_read. Qed.
Print Assumptions C76_point_fails.

(** Integers mean what they say. *)
Theorem C76_value : forall s, digits (text s) -> int_of s = Z.of_nat (place_value (text s)).
Proof. exact integer_value. Qed.
Print Assumptions C76_value.
Example C76_value_case : digits (text "0120") /\ place_value (text "0120") = 120.
Proof. split; [apply digits_sound; [discriminate|reflexivity]|reflexivity]. Qed.

(** C77.  Full statement: an expression between [$(] and its closing parenthesis is taken
    whole, and the script goes on after it.  False: parentheses inside quotes are counted. *)
Theorem C77_expression_refuted : exists e s, python_text false e /\ laid_out true [(Of SEMICOLON, text ";")] s /\
  ~ In (Of PYTHON_END) (map fst (tokens (fst (read (text "$(" ++ e ++ ")"%char :: s))))).
Proof. exact refute_expression. Qed.
Print Assumptions C77_expression_refuted.

(** Expressions without parentheses inside quotes are taken whole, character by character,
    and the script goes on after them. *)
Theorem C77_expression_partial : forall e s, python_text true e -> exists l,
  concat (map snd l) = e /\
  tokens (fst (read (text "$(" ++ e ++ ")"%char :: s))) =
    (Of PYTHON_ESCAPE, text "$(") :: l ++ (Of PYTHON_END, text ")") :: tokens (fst (read s)).
Proof. exact expression_read. Qed.
Print Assumptions C77_expression_partial.
Example C77_case : python_text true (text "f('a;b', (1))").
Proof.
  apply (python_one true "f"); try discriminate; [intros [E|E]; discriminate|].
  apply (python_parens true (text "'a;b', (1)") []); [|constructor].
  apply (python_string true Single (text "a;b") (text ", (1)")).
  - repeat constructor; try discriminate; cbn; intuition discriminate.
  - intros _. cbn. intuition discriminate.
  - apply (python_one true ","); try discriminate; [intros [E|E]; discriminate|].
    apply (python_one true " "); try discriminate; [intros [E|E]; discriminate|].
    apply (python_parens true (text "1") []); [|constructor].
    apply (python_one true "1"); try discriminate; [intros [E|E]; discriminate|]. constructor.
Qed.

(** C78.  Every character of a script is part of a word, of white space or a comment, or of
    what is reported as no word; only white space and comments are skipped.  Reading always
    reaches the end. *)
Theorem C78_lossless : forall s, snd (read s) = AtEnd /\ concat (map taken (fst (read s))) = s /\
  skips_only_spaces (fst (read s)).
Proof. exact read_lossless. Qed.
Print Assumptions C78_lossless.

(** Full statement: a script some of which is no word is not executed as though that were
    not there.  False: the parser gets the same words. *)
Theorem C78_dropped_refuted : exists s s', ~ nothing_dropped (fst (read s)) /\
  laid_out true (tokens (fst (read s'))) s' /\ tokens (fst (read s)) = tokens (fst (read s')) /\ tokens (fst (read s)) <> [].
Proof. exact refute_dropped. Qed.
Print Assumptions C78_dropped_refuted.

(** Characters that begin no word are passed over wherever a word might begin. *)
Theorem C78_meaningless_fails : forall c s, meaningless c ->
  read (c :: s) = let (l, e) := read s in (Dropped [c] :: l, e).
Proof. exact read_meaningless. Qed.
Print Assumptions C78_meaningless_fails.
Example C78_meaningless_case : meaningless "=" /\ meaningless "&" /\ meaningless "^".
Proof.
  unfold meaningless, in_path, starts_name, is_letter, is_digit, is_sign, is_blank, quote_char.
  cbn. intuition (discriminate || (try match goal with H : _ |- _ => vm_compute in H end); try lia).
Qed.

(** With a quote that nothing closes, the rest of the script is passed over. *)
Theorem C78_unclosed_fails : forall q b, Forall (fun c => c <> mark q /\ (q = Double -> c <> "\"%char)) b ->
  read (mark q :: b) = ([Dropped (mark q :: b)], AtEnd).
Proof. exact (fun q b => unclosed q b []). Qed.
Print Assumptions C78_unclosed_fails.
Example C78_unclosed_case : Forall (fun c => c <> mark Single /\ (Single = Double -> c <> "\"%char)) (text "it; detfn f linear [1, 2];").
Proof. repeat constructor; discriminate. Qed.
