(** * C81: a script does what its text spells *)
From Coq Require Import ZArith Ascii String List.
From Verif Require Import Interp Interp_spec Lexer Lexer_spec Lexer_proofs6 Program Program_spec
  Program_proofs3.
Import ListNotations.
Local Open Scope list_scope.

(** The words of a script determine its parse tree. *)
Theorem C81_unambiguous : forall l l', derives (Node script l) -> derives (Node script l') ->
  words (Node script l) = words (Node script l') -> Node script l = Node script l'.
Proof. exact unambiguous. Qed.
Print Assumptions C81_unambiguous.

(** Whatever the layout, a text which spells a script is parsed, and only as that script. *)
Theorem C81_text : forall s l, spells s l -> parses s (t_items l) /\ forall t, parses s t -> t = t_items l.
Proof. exact text_parses. Qed.
Print Assumptions C81_text.

(** White space, line ends and comments do not matter. *)
Theorem C81_layout : forall s s' l t, spells s l -> spells s' l -> (parses s t <-> parses s' t).
Proof. exact layout_parses. Qed.
Print Assumptions C81_layout.

(** A run over given files has one outcome. *)
Theorem C81_one_outcome : forall world ask ss w f f',
  main world ask ss w f -> main world ask ss w f' -> f = f'.
Proof. exact main_function. Qed.
Print Assumptions C81_one_outcome.

(** Full statement: the conclusion of [C81_program_partial] for all scripts.  False: *)
Theorem C81_program_refuted : exists s l, spells s l /\
  main log write_down [s] [] (Finished [("IntegrationSettings"%string, [VInt 5; VInt 1])%Z]) /\
  ends (all_scripts log write_down [l] []) = Finished [("IntegrationSettings"%string, [VInt 1; VInt 5])%Z].
Proof. exact refute_program. Qed.
Print Assumptions C81_program_refuted.

(** Proved: if all commands are sound (C52), a run over several files makes the calls their
    texts spell, file after file, each without the variables and titles of those before; the
    first exception ends the run. *)
Theorem C81_program_partial : forall world ask ss ls, Forall2 spells ss ls ->
  Forall (Forall (fun i => sound_item i = true)) ls -> forall w f,
  main world ask ss w f <-> f = ends (all_scripts world ask ls w).
Proof. exact main_done. Qed.
Print Assumptions C81_program_partial.

(** A file whose words are of no script is refused whole: none of its commands is done. *)
Theorem C81_refused : forall world ask ws s ss w f, laid_out true ws s -> (forall l, words (t_items l) <> ws) ->
  main world ask (s :: ss) w f -> f = Misread w.
Proof. exact refused. Qed.
Print Assumptions C81_refused.

(** For instance if the last semicolon is missing. *)
Theorem C81_unterminated : forall world ask l ws s ss w f, laid_out true ws s ->
  words (t_items l) = ws ++ [(Of SEMICOLON, text ";")] -> main world ask (s :: ss) w f -> f = Misread w.
Proof. exact unterminated. Qed.
Print Assumptions C81_unterminated.

(** Two files. *)
Example C81_case : Forall2 spells [text "im a f;"; "010"%char :: text "im b   f ;"] [one_im "a"; one_im "b"] /\
  Forall (Forall (fun i => sound_item i = true)) [one_im "a"; one_im "b"] /\
  ends (all_scripts log write_down [one_im "a"; one_im "b"] []) =
  Finished [("detfn.lookup", [VStr "f"]); ("im", [VStr "a"; VObj 0]);
            ("detfn.lookup", [VStr "f"]); ("im", [VStr "b"; VObj 2])]%string.
Proof.
  split; [exact (Forall2_cons _ _ first_spelt (Forall2_cons _ _ second_spelt (Forall2_nil _)))|].
  split; [repeat constructor|vm_compute; reflexivity].
Qed.

(** Two layouts of one script. *)
Example C81_layouts : spells (text "im a f;") (one_im "a") /\ spells (text "im  a f ;") (one_im "a").
Proof.
  split; [apply first_spelt|].
  fixed (Of IM) "im"%string. blank. blank. name "a"%string. blank. name "f"%string. blank. fixed (Of SEMICOLON) ";"%string. constructor.
Qed.

(** A script without its last semicolon. *)
Example C81_unfinished : exists ws, laid_out true ws (text "im a f") /\
  words (t_items (one_im "a")) = ws ++ [(Of SEMICOLON, text ";")].
Proof.
  exists [(Of IM, text "im"); (Of ID, text "a"); (Of ID, text "f")]. split; [|reflexivity].
  fixed (Of IM) "im"%string. blank. name "a"%string. blank. name "f"%string. constructor.
Qed.

(** Words of no script. *)
Example C81_no_script : forall l, words (t_items l) <> [(Of IM, text "im")].
Proof.
  intros [|[s|c] l] H; [discriminate|discriminate|].
  assert (I : In (Of SEMICOLON, text ";") (words (t_items (Command c :: l)))).
  { apply in_or_app. left. apply in_or_app. right. left. reflexivity. }
  rewrite H in I. destruct I as [I|[]]. discriminate I.
Qed.
