(** The [Replaceable] statements, assembled. *)

Require Import List Arith Bool Lia.
From Verif Require Import Replaceable Replaceable_spec Replaceable_proofs.
Import ListNotations.

Lemma notify_exact : forall o h, only_on o h -> sensible h ->
  NoDup (ids_handed_out h) /\
  actions h (RNotify o) = map Changed (in_order h) /\
  NoDup (in_order h) /\
  (forall c, In c (in_order h) <-> uses h c = Some o).
Proof.
  intros o h Ho Hs. pose proof (one_inv o h Ho Hs) as I.
  assert (Hu : forall c p, uses h c = Some p -> p = o).
  { clear - Ho. unfold uses.
    assert (G : forall u : nat -> option nat, (forall c p, u c = Some p -> p = o) ->
              forall c p, fold_left uses_step h u c = Some p -> p = o).
    { induction h as [|op h IH]; intros u Hu c p; cbn; [apply Hu|].
      apply IH; [intros x Ix; apply Ho; right; auto|].
      specialize (Ho op (or_introl eq_refl)). intros c' p'.
      destruct op; cbn in *; try tauto.
      - destruct (c' =? c0); [congruence|apply Hu].
      - destruct (c' =? c0); [congruence|apply Hu].
      - apply Hu. }
    apply G. discriminate. }
  split; [|split; [|split]].
  - unfold ids_handed_out. rewrite (ids_increase o h rsys0 Ho); [apply seq_NoDup|discriminate].
  - unfold actions. cbn. rewrite (one_order _ _ I). reflexivity.
  - rewrite <- (one_order _ _ I). apply values_nodup; [apply (one_sorted _ _ I)|].
    intros k k' c J K. apply (one_held _ _ I) in J. apply (one_held _ _ I) in K. congruence.
  - intros c. rewrite <- (one_order _ _ I). unfold clients. rewrite in_map_iff. split.
    + intros [[k c'] [E J]]. cbn in E; subst. apply (one_held _ _ I) in J.
      destruct (uses h c) as [p|] eqn:E; [rewrite (Hu _ _ E); auto|].
      apply (one_uses _ _ I) in E. congruence.
    + intros E. destruct (held (rafter h) c) as [[p k]|] eqn:Eh.
      * pose proof (one_only _ _ I _ _ _ Eh); subst. exists (k, c). split; [auto|].
        apply (one_held _ _ I); auto.
      * apply (one_uses _ _ I) in Eh. congruence.
Qed.

Lemma careful_exact : forall h o, sensible h -> careful h ->
  exists L, NoDup L /\ (forall c, In c L <-> uses h c = Some o) /\
    actions h (RNotify o) = map Changed L /\
    (forall o', actions h (RReplace o o') = map (fun c => Replaced c o') L).
Proof.
  intros h o Hs Hc. destruct (careful_inv h Hs Hc) as [past I].
  destruct (sinv_clients _ _ _ o I) as [D E].
  exists (clients (objs (rafter h) o)). split; [auto|]. split; [auto|]. split; reflexivity.
Qed.

Lemma chain_exact : forall h o os, sensible h -> careful h ->
  NoDup (o :: os) -> (forall p, In p os -> unused p h) ->
  exists L, NoDup L /\ (forall c, In c L <-> uses h c = Some o) /\
    actions h (RNotify o) = map Changed L /\
    (forall h1 p q h2, chain o os = h1 ++ RReplace p q :: h2 ->
       actions (h ++ h1) (RReplace p q) = map (fun c => Replaced c q) L) /\
    actions (h ++ chain o os) (RNotify (last os o)) = map Changed L /\
    (forall p, In p (o :: os) -> p <> last os o ->
       actions (h ++ chain o os) (RNotify p) = []) /\
    (forall p, ~ In p (o :: os) ->
       actions (h ++ chain o os) (RNotify p) = actions h (RNotify p)).
Proof.
  intros h o os Hs Hc Hd Hf. destruct (careful_inv h Hs Hc) as [past I].
  destruct (sinv_clients _ _ _ o I) as [D E].
  destruct (chain_moves os h o Hd) as (C1 & C2 & C3 & C4).
  exists (clients (objs (rafter h) o)). split; [auto|]. split; [auto|]. split; [reflexivity|].
  split; [exact C1|]. unfold actions. cbn [rstep snd].
  split; [rewrite C2; reflexivity|]. split.
  - intros p Ip Np. rewrite (C3 _ Ip Np). reflexivity.
  - intros p Np. rewrite (C4 _ Np). reflexivity.
Qed.

(** A newcomer displaces a client that was carried over. *)
Lemma displaced : exists h o c,
  sensible h /\ uses h c = Some o /\ ~ In (Changed c) (actions h (RNotify o)).
Proof.
  exists [RAdd 0 0; RReplace 0 1; RAdd 1 1], 1, 0.
  split; [vm_compute; repeat split|]. split; [reflexivity|].
  vm_compute. intros [Q|[]]; discriminate Q.
Qed.

(** The displaced client, on leaving, unregisters the newcomer. *)
Lemma evicted : exists h o c c',
  c <> c' /\ sensible (h ++ [RLeave c']) /\
  In (Changed c) (actions h (RNotify o)) /\
  uses (h ++ [RLeave c']) c = Some o /\
  ~ In (Changed c) (actions (h ++ [RLeave c']) (RNotify o)).
Proof.
  exists [RAdd 0 0; RReplace 0 1; RAdd 1 1], 1, 1, 0.
  split; [discriminate|]. split; [vm_compute; repeat split; discriminate|].
  split; [vm_compute; auto|]. split; [reflexivity|]. vm_compute. tauto.
Qed.

(** A client the replacement already had is dropped. *)
Lemma dropped : exists h o o' c,
  sensible (h ++ [RReplace o o']) /\ o <> o' /\
  In (Changed c) (actions h (RNotify o')) /\
  uses (h ++ [RReplace o o']) c = Some o' /\
  ~ In (Changed c) (actions (h ++ [RReplace o o']) (RNotify o')).
Proof.
  exists [RAdd 0 0; RAdd 1 1], 0, 1, 1.
  split; [vm_compute; repeat split|]. split; [discriminate|].
  split; [vm_compute; auto|]. split; [reflexivity|].
  vm_compute. intros [Q|[]]; discriminate Q.
Qed.

(** Replacing an object by itself loses its clients. *)
Lemma self_replaced : exists h o c,
  sensible (h ++ [RReplace o o]) /\
  In (Changed c) (actions h (RNotify o)) /\
  uses (h ++ [RReplace o o]) c = Some o /\
  ~ In (Changed c) (actions (h ++ [RReplace o o]) (RNotify o)).
Proof.
  exists [RAdd 0 0], 0, 0.
  split; [vm_compute; repeat split|]. split; [vm_compute; auto|].
  split; [reflexivity|]. vm_compute. tauto.
Qed.
