(** Properties C09, C10, C11: change notification and replacement. *)

Require Import List Arith Lia.
From Verif Require Import Replaceable Replaceable_spec Replaceable_claims_proofs.
Import ListNotations.

(** C09.  After any history of registrations and removals on one object, the
    ids handed out are pairwise distinct, and a change notification runs the
    change action of exactly the clients registered and not removed, once each,
    in order of registration. *)
Theorem C09_notify : forall o h, only_on o h -> sensible h ->
  NoDup (ids_handed_out h) /\
  actions h (RNotify o) = map Changed (in_order h) /\
  NoDup (in_order h) /\
  (forall c, In c (in_order h) <-> uses h c = Some o).
Proof. exact notify_exact. Qed.
Print Assumptions C09_notify.

(** Four clients register, two leave, one comes back. *)
Example C09_case :
  let h := [RAdd 1 0; RAdd 2 0; RAdd 3 0; RLeave 2; RNotify 0; RAdd 4 0; RLeave 1; RAdd 2 0] in
  only_on 0 h /\ sensible h /\
  actions h (RNotify 0) = [Changed 3; Changed 4; Changed 2] /\
  ids_handed_out h = [1; 2; 3; 4; 5].
Proof.
  split; [intros op H; repeat (destruct H as [<-|H]; [exact I || reflexivity|]); destruct H|].
  split; [vm_compute; repeat split; discriminate|]. split; reflexivity.
Qed.

(** C10.  Replacing an object through any chain of distinct fresh objects runs
    each client's replace action once per replacement, with that replacement;
    afterwards the last object of the chain notifies exactly those clients, in
    the same order, the others none, and objects outside the chain notify the
    clients they notified before.  The clients are those the operations say
    use the object. *)
Theorem C10_replace : forall h o os, sensible h -> careful h ->
  NoDup (o :: os) -> (forall p, In p os -> unused p h) ->
  exists L, NoDup L /\ (forall c, In c L <-> uses h c = Some o) /\
    actions h (RNotify o) = map Changed L /\
    (forall h1 p q h2, chain o os = h1 ++ RReplace p q :: h2 ->
       actions (h ++ h1) (RReplace p q) = map (fun c => Replaced c q) L) /\
    actions (h ++ chain o os) (RNotify (last os o)) = map Changed L /\
    (forall p, In p (o :: os) -> p <> last os o ->
       actions (h ++ chain o os) (RNotify p) = []) /\
    (forall p, ~ In p (o :: os) ->
       actions (h ++ chain o os) (RNotify p) = actions h (RNotify p)).
Proof. exact chain_exact. Qed.
Print Assumptions C10_replace.

Example C10_case :
  let h := [RAdd 1 0; RAdd 2 0; RAdd 3 5; RReplace 5 6] in
  let os := [7; 8] in
  (sensible h /\ careful h /\ NoDup (0 :: os) /\ (forall p, In p os -> unused p h)) /\
  actions (h ++ chain 0 os) (RNotify 8) = [Changed 1; Changed 2] /\
  actions (h ++ chain 0 os) (RNotify 6) = [Changed 3].
Proof.
  split; [|split; reflexivity].
  split; [vm_compute; repeat split|]. split.
  - vm_compute; repeat split; try tauto; try discriminate.
    intros c; repeat (destruct c as [|c]; try discriminate).
  - split; [repeat constructor; cbn; intros H; repeat destruct H as [H|H]; discriminate || tauto|].
    intros p Hp op Ho. destruct Hp as [<-|[<-|[]]];
      repeat (destruct Ho as [<-|Ho]; [cbn; lia|]); destruct Ho.
Qed.

(** C11 is false: an object that has replaced another one keeps its own id
    counter, so a client registering with it can be given the id of a client
    that was carried over, which is then no longer notified. *)
Theorem C11_displaced_refuted : exists h o c,
  sensible h /\ uses h c = Some o /\ ~ In (Changed c) (actions h (RNotify o)).
Proof. exact displaced. Qed.
Print Assumptions C11_displaced_refuted.

(** Removing one client can unregister another. *)
Theorem C11_evicted_refuted : exists h o c c',
  c <> c' /\ sensible (h ++ [RLeave c']) /\
  In (Changed c) (actions h (RNotify o)) /\
  uses (h ++ [RLeave c']) c = Some o /\
  ~ In (Changed c) (actions (h ++ [RLeave c']) (RNotify o)).
Proof. exact evicted. Qed.
Print Assumptions C11_evicted_refuted.

(** Clients the replacement had before are lost. *)
Theorem C11_dropped_refuted : exists h o o' c,
  sensible (h ++ [RReplace o o']) /\ o <> o' /\
  In (Changed c) (actions h (RNotify o')) /\
  uses (h ++ [RReplace o o']) c = Some o' /\
  ~ In (Changed c) (actions (h ++ [RReplace o o']) (RNotify o')).
Proof. exact dropped. Qed.
Print Assumptions C11_dropped_refuted.

(** Replacing an object by itself loses its clients. *)
Theorem C11_self_refuted : exists h o c,
  sensible (h ++ [RReplace o o]) /\
  In (Changed c) (actions h (RNotify o)) /\
  uses (h ++ [RReplace o o]) c = Some o /\
  ~ In (Changed c) (actions (h ++ [RReplace o o]) (RNotify o)).
Proof. exact self_replaced. Qed.
Print Assumptions C11_self_refuted.

(** What is left of C11: in careful histories (replacements have no clients of
    their own, and get none but those carried over) every object reaches exactly
    the clients that use it, once each, for notification and for replacement.
    Missing: histories in which a client registers with an object that has
    replaced another, or a replacement has clients. *)
Theorem C11_careful_partial : forall h o, sensible h -> careful h ->
  exists L, NoDup L /\ (forall c, In c L <-> uses h c = Some o) /\
    actions h (RNotify o) = map Changed L /\
    (forall o', actions h (RReplace o o') = map (fun c => Replaced c o') L).
Proof. exact careful_exact. Qed.
Print Assumptions C11_careful_partial.

Example C11_case :
  let h := [RAdd 1 0; RAdd 2 0; RAdd 3 1; RReplace 0 2; RLeave 1; RReplace 2 3; RAdd 4 1] in
  sensible h /\ careful h /\
  actions h (RNotify 3) = [Changed 2] /\ actions h (RNotify 1) = [Changed 3; Changed 4].
Proof.
  split; [vm_compute; repeat split; discriminate|]. split; [|split; reflexivity].
  vm_compute; repeat split; try tauto; try discriminate;
    solve [ intros c; repeat (destruct c as [|c]; try discriminate)
          | intros H; repeat (destruct H as [H|H]; try discriminate); exact H ].
Qed.
