(** C91: objects are found by name and by what they wrap. *)
Require Import List Arith.
From Verif Require Import Names Names_spec Names_proofs.
Import ListNotations.

(** Looking a name up gives the object of the latest definition of it that was accepted
    since the last [ClearCaches], and nothing if there is none. *)
Theorem C91_latest : forall l c n, lookup (after l) c (Some n) = latest (c, Some n) (trace l) 0 None.
Proof. exact latest_found. Qed.
Print Assumptions C91_latest.

(** The name 5 is used in two classes, defined again, refused, cleared, defined. *)
Example C91_latest_met :
  let l := [New KIm (Some 5) Makes; New KEdp (Some 5) Makes; New KIm (Some 5) Makes; New KIm (Some 5) Refuses] in
  lookup (after l) KIm (Some 5) = Some 2 /\ lookup (after l) KEdp (Some 5) = Some 1 /\
  lookup (after l) KGrp (Some 5) = None /\ lookup (after (l ++ [Clear])) KIm (Some 5) = None /\
  lookup (after (l ++ [Clear; New KIm (Some 5) Makes])) KIm (Some 5) = Some 3.
Proof. repeat split. Qed.

(** A definition that does not succeed changes no lookup, by name or by library object,
    and hands nothing over. *)
Theorem C91_failed : forall l o, fst (step (after l) o) <> Fine ->
  let s := after l in let s' := snd (step s o) in
  (forall c id, lookup s' c id = lookup s c id) /\ (forall c f, lookup_object s' c f = lookup_object s c f) /\
  (forall c id w f, wraps s c id w f -> wraps s' c id w f) /\ handed s' = handed s.
Proof. exact not_fine. Qed.
Print Assumptions C91_failed.

Example C91_failed_met :
  fst (step (after [New KFrag (Some 1) Makes]) (New KFrag (Some 1) Refuses)) <> Fine /\
  fst (step (after [Empty true (Some 1)]) (New KFrag (Some 1) Makes)) <> Fine /\
  fst (step (after [New KFrag (Some 1) Makes]) (Empty true (Some 1))) <> Fine.
Proof. repeat split; discriminate. Qed.

(** One that succeeds makes a new object, which wraps a new library object, found under
    the name; and hands the users of the previous definition over to it, once, if the
    class is one whose definitions replace each other. *)
Theorem C91_succeeded : forall l c n, let s := after l in let s' := snd (step s (New c (Some n) Makes)) in
  fst (step s (New c (Some n) Makes)) = Fine ->
  exists w f, wraps s' c (Some n) w f /\
    (forall c' id' w' f', wraps s c' id' w' f' -> w' <> w /\ f' <> f) /\
    exists h, handed s' = handed s ++ h /\
      hands c (match lookup s c (Some n) with Some old => func s old | None => None end) f h.
Proof. exact fine. Qed.
Print Assumptions C91_succeeded.

Example C91_succeeded_met :
  let s := after [New KLoss (Some 1) Makes] in
  fst (step s (New KLoss (Some 1) Makes)) = Fine /\ wraps s KLoss (Some 1) 0 0 /\ handed (snd (step s (New KLoss (Some 1) Makes))) = [(0, 1)].
Proof. repeat split. Qed.

(** Full statement: an object made without a name is found under no name, [None]
    included.  False: demand parameters are registered outside the test for a name. *)
Theorem C91_nameless_refuted : exists l w, lookup (after l) KEdp None = Some w.
Proof. exact refute_nameless. Qed.
Print Assumptions C91_nameless_refuted.

(** It holds of the other classes. *)
Theorem C91_nameless_partial : forall l c, c <> KEdp -> lookup (after l) c None = None.
Proof. exact nameless_hidden. Qed.
Print Assumptions C91_nameless_partial.

Example C91_nameless_met : KIm <> KEdp /\ wrappers (after [New KIm None Makes]) = 1.
Proof. split; [discriminate|reflexivity]. Qed.

(** Full statement: no definition ends the process, if making its library object does
    not.  False: a fragility function is defined, then one of the same name from a
    database, whose placeholder is handed to [replace] as a null pointer. *)
Theorem C91_ends_refuted : exists l, survivable l /\ In Ended (fst (run initial l)).
Proof. exact refute_ends. Qed.
Print Assumptions C91_ends_refuted.

(** Without placeholders all definitions succeed, except those whose library objects
    are refused. *)
Theorem C91_answers_partial : forall l, solid l -> survivable l ->
  fst (run initial l) = map (fun o => match o with New _ _ Refuses => Raised | _ => Fine end) l.
Proof. exact answers. Qed.
Print Assumptions C91_answers_partial.

Example C91_answers_met :
  let l := [New KFrag (Some 1) Makes; New KFrag (Some 1) Refuses; Clear; New KFrag (Some 1) Makes; New KFrag None Makes] in
  solid l /\ survivable l.
Proof.
  split.
  - intros b id H. cbn in H. repeat (destruct H as [H|H]; [discriminate|]). exact H.
  - intros c id H. cbn in H. repeat (destruct H as [H|H]; [discriminate|]). exact H.
Qed.

(** Once a name stands for a placeholder, nothing can be defined under it until the next
    [ClearCaches], nor the placeholder made again. *)
Theorem C91_stuck_fails : forall l frag n l' o,
  ~ In Ended (fst (run initial l)) -> fst (step (after l) (Empty frag (Some n))) = Fine -> ~ In Clear l' ->
  ((exists m, o = New (if frag then KFrag else KLoss) (Some n) m) \/ o = Empty frag (Some n)) ->
  fst (step (after (l ++ Empty frag (Some n) :: l')) o) <> Fine.
Proof. exact stuck. Qed.
Print Assumptions C91_stuck_fails.

Example C91_stuck_met :
  ~ In Ended (fst (run initial [New KFrag (Some 2) Makes])) /\
  fst (step (after [New KFrag (Some 2) Makes]) (Empty true (Some 1))) = Fine /\
  ~ In Clear [New KLoss (Some 1) Makes] /\
  fst (step (after ([New KFrag (Some 2) Makes] ++ [Empty true (Some 1); New KLoss (Some 1) Makes])) (New KFrag (Some 1) Makes)) = Raised.
Proof.
  split; [intros [H|H]; [discriminate|exact H]|]. split; [reflexivity|]. split; [|reflexivity].
  intros [H|H]; [discriminate|exact H].
Qed.

(** Full statement: looking a library object up gives the definition that wraps it, if
    one does.  False: the search fails on a placeholder before it. *)
Theorem C91_object_refuted : exists l n w f, wraps (after l) KFrag (Some n) w f /\ lookup_object (after l) KFrag f = Fails.
Proof. exact refute_object. Qed.
Print Assumptions C91_object_refuted.

(** It holds without placeholders. *)
Theorem C91_object_partial : forall l c f, solid l ->
  match lookup_object (after l) c f with
  | Found w => exists id, wraps (after l) c id w f
  | Nothing => forall id w, ~ wraps (after l) c id w f
  | Fails => False
  end.
Proof. exact object_found. Qed.
Print Assumptions C91_object_partial.

Example C91_object_met :
  let l := [New KGrp (Some 1) Makes; New KGrp (Some 2) Makes; New KGrp (Some 1) Makes] in
  solid l /\ lookup_object (after l) KGrp 0 = Nothing /\ lookup_object (after l) KGrp 1 = Found 1 /\
  lookup_object (after l) KGrp 2 = Found 2.
Proof.
  split; [|repeat split]. intros b id H. cbn in H. repeat (destruct H as [H|H]; [discriminate|]). exact H.
Qed.

(** No library object is wrapped by two definitions. *)
Theorem C91_one_object : forall l c id w c' id' w' f,
  wraps (after l) c id w f -> wraps (after l) c' id' w' f -> w = w'.
Proof. exact one_object. Qed.
Print Assumptions C91_one_object.

Example C91_one_object_met : wraps (after [New KGrp (Some 1) Makes]) KGrp (Some 1) 0 0.
Proof. split; reflexivity. Qed.
