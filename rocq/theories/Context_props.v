(** * Properties of diagnostic context: C51 *)
From Coq Require Import List Arith Lia.
From Verif Require Import Context Context_spec Context_proofs.
Import ListNotations.

(** Full statement: whatever scopes are opened and closed and whatever regions are
    run, the text a thread reads is that of its open scopes and those of its
    ancestors.  False in two ways: a region with more threads than the one before
    accesses a vector beyond its end; and the threads of a region within one of a
    single thread share a context, so that one reads the scopes of another. *)
Theorem C51_nesting_refuted : forall (X : Type) (x : X),
  (exists l pos,
     steps start l = OutOfRange /\
     (exists s, steps start (removelast l) = Next s /\ running pos (fst s)) /\
     l = [([], Fork 2); ([1], Open x); ([1], Close); ([], Join); ([], Fork 3); ([2], Open x)]) /\
  (exists s r,
     steps start [([], Fork 1); ([0], Fork 2); ([0; 0], Open x)] = Next s /\
     running [0; 1] (fst s) /\ open_scopes [0; 1] (fst s) = Some [] /\ text_at s [0; 1] = Some r /\ map fst r = [x]).
Proof. exact (fun X x => conj (refute_teams x) (refute_nested x)). Qed.
Print Assumptions C51_nesting_refuted.

(** What holds, if all regions at the same depth have the same number of threads or
    a single one, and those of a single one contain no others: every running thread
    reads exactly the open scopes of its ancestors and its own, outermost first. *)
Theorem C51_text_partial : forall (X : Type) sizes (s : state X) pos, reached sizes s -> running pos (fst s) ->
  exists r, text_at s pos = Some r /\ open_scopes pos (fst s) = Some (map fst r).
Proof. exact @context_text. Qed.
Print Assumptions C51_text_partial.

(** No step accesses a vector beyond its end. *)
Theorem C51_safe_partial : forall (X : Type) sizes (s : state X) pos a, reached sizes s -> step s pos a <> OutOfRange.
Proof. exact @context_safe. Qed.
Print Assumptions C51_safe_partial.

(** When all scopes are closed and all regions have ended no text is left. *)
Theorem C51_restored_partial : forall (X : Type) sizes (c : ctx X), reached sizes (Thread [] [], c) ->
  all_empty c /\ text_at (Thread [] [], c) [] = Some [].
Proof. exact @context_restored. Qed.
Print Assumptions C51_restored_partial.

Example C51_case : exists s, reached (fun _ => 2) s /\ running [1] (fst s) /\ open_scopes [1] (fst s) = Some [7; 9].
Proof.
  assert (U : forall x l a b, length l = 2 -> nth_error l 0 = Some (Thread a []) -> nth_error l 1 = Some (Thread b []) ->
              uniform (X := nat) (fun _ => 2) 0 (Thread x l)).
  { intros x l a b L A B. apply uniform_region; [lia|exact L|]. intros i u E. apply uniform_serial.
    destruct i as [|[|i]]; [rewrite A in E|rewrite B in E|]; try (injection E; intros <-; constructor).
    assert (nth_error l (S (S i)) <> None) as Q by congruence. apply nth_error_Some in Q. lia. }
  eexists. split; [|split].
  - eapply reached_step with (pos := [1]) (a := Open 9).
    + eapply reached_step with (pos := [0]) (a := Open 8).
      * eapply reached_step with (pos := []) (a := Fork 2).
        -- eapply reached_step with (pos := []) (a := Open 7); [apply reached_start|reflexivity|].
           apply uniform_serial. constructor.
        -- reflexivity.
        -- eapply U; reflexivity.
      * reflexivity.
      * eapply U; reflexivity.
    + reflexivity.
    + eapply U; reflexivity.
  - reflexivity.
  - reflexivity.
Qed.
