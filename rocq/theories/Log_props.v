(** Property C68: where log messages go. *)

Require Import List Bool String Permutation.
From Verif Require Import Log Log_spec Log_proofs.
Import ListNotations.

(** Full statement: [logs_right], a message goes to the terminal once if logging to
    it is switched on, and to the file named last.  False: once switched on again,
    logging to the terminal cannot be switched off. *)
Theorem C68_log_refuted : exists h, switched h false /\ filed h (Some "log.txt"%string) /\
  In Stderr (message (session h)).
Proof. exact refute_logs. Qed.
Print Assumptions C68_log_refuted.

(** As long as it is never switched off, a message goes to the terminal once and to
    the file named last. *)
Theorem C68_log_partial : forall h f, filed h f -> ~ In (ToStdErr false) h ->
  Permutation (message (session h)) (places 1 f).
Proof. exact logs_on. Qed.
Print Assumptions C68_log_partial.

Example C68_log_case : let h := [ToFile "a"; ToStdErr true; ToFile "b"]%string in
  filed h (Some "b"%string) /\ ~ In (ToStdErr false) h /\ message (session h) = [Stderr; File "b"].
Proof.
  refine (conj (Fi_set [_; _] _) (conj _ eq_refl)). intros [H|[H|[H|[]]]]; discriminate.
Qed.

(** After the first time it is, a message goes to the terminal as many times as
    logging was switched on since, whatever else was said, and to the file named
    last. *)
Theorem C68_off_partial : forall h f r, filed h f -> after_off h r -> places (ons r) f <> [] ->
  Permutation (message (session h)) (places (ons r) f).
Proof. exact logs_off. Qed.
Print Assumptions C68_off_partial.

Example C68_off_case :
  let h := [ToFile "a"; ToStdErr false; ToStdErr true; ToStdErr false; ToStdErr true]%string in
  filed h (Some "a"%string) /\ after_off h [ToStdErr true; ToStdErr false; ToStdErr true] /\
  message (session h) = [File "a"; Stderr; Stderr].
Proof.
  refine (conj _ (conj _ eq_refl)).
  - apply (Fi_std [_; _; _; _]), (Fi_std [_; _; _]), (Fi_std [_; _]), (Fi_std [_]), (Fi_set []).
  - apply (Off [ToFile "a"%string]). intros [H|[]]; discriminate.
Qed.

(** Switched off, without a file, it goes to the standard output. *)
Theorem C68_nowhere_fails : forall h r, filed h None -> after_off h r -> ons r = 0 -> message (session h) = [Stdout].
Proof. exact logs_none. Qed.
Print Assumptions C68_nowhere_fails.

Example C68_nowhere_case : filed [ToStdErr false] None /\ after_off [ToStdErr false] [].
Proof. split; [apply (Fi_std []), Fi_start|apply (Off [])]. intros []. Qed.
