(** Proofs about where log messages go. *)

Require Import List Bool Arith String Permutation Lia.
From Verif Require Import Log Log_spec.
Import ListNotations.

Lemma filed_unique : forall h f g, filed h f -> filed h g -> f = g.
Proof.
  intros h f g H. revert g. induction H as [|h p|h b f H IH]; intros g G; inversion G as [E|h' p' E|h' b' f' H' E].
  - reflexivity.
  - destruct h'; discriminate.
  - destruct h'; discriminate.
  - destruct h; discriminate.
  - apply app_inj_tail in E. destruct E as [_ E]. congruence.
  - apply app_inj_tail in E. destruct E as [_ E]. discriminate.
  - destruct h; discriminate.
  - apply app_inj_tail in E. destruct E as [_ E]. discriminate.
  - apply app_inj_tail in E. destruct E as [-> _]. auto.
Qed.

Lemma filter_all : forall A (f : A -> bool) l, Forall (fun x => f x = true) l -> filter f l = l.
Proof. induction 1; cbn; auto. rewrite H. congruence. Qed.

(** The state: [n] sinks to the terminal, [k] of them the known one, and perhaps one
    file. *)
Record good (s : log) (known : bool) (n : nat) (f : option string) : Prop := {
  g_sinks : Permutation (map snd (sinks s)) (places n f);
  g_nodup : NoDup (map fst (sinks s));
  g_fresh : Forall (fun x => fst x < fresh s) (sinks s);
  g_std : match std_error_sink s with
          | Some k => known = true /\ In (k, Stderr) (sinks s)
          | None => known = false
          end;
  g_file : match file_sink s, f with
           | Some k, Some p => In (k, File p) (sinks s)
           | None, None => True
           | _, _ => False
           end
}.

Lemma remove_split : forall s k p, NoDup (map fst (sinks s)) -> In (k, p) (sinks s) ->
  exists a b, sinks s = a ++ (k, p) :: b /\ sinks (remove k s) = a ++ b.
Proof.
  intros s k p N I. apply in_split in I. destruct I as [a [b E]]. exists a, b. split; auto.
  unfold remove. cbn [sinks]. rewrite E in *. rewrite filter_app. cbn [filter fst]. rewrite Nat.eqb_refl. cbn [negb].
  rewrite map_app in N. cbn in N. apply NoDup_remove in N. destruct N as [_ N].
  assert (H : forall l, (forall x, In x l -> In x (a ++ b)) -> filter (fun x => negb (Nat.eqb (fst x) k)) l = l).
  { intros l Hl. apply filter_all. rewrite Forall_forall. intros x Hx. apply negb_true_iff, Nat.eqb_neq. intros E'.
    apply N. rewrite <- E', <- map_app. now apply in_map, Hl. }
  rewrite !H; auto; intros x Hx; apply in_or_app; auto.
Qed.

Lemma good_remove : forall s k p l, NoDup (map fst (sinks s)) -> Forall (fun x => fst x < fresh s) (sinks s) ->
  In (k, p) (sinks s) -> Permutation (map snd (sinks s)) (p :: l) ->
  Permutation (map snd (sinks (remove k s))) l /\ NoDup (map fst (sinks (remove k s))) /\
  Forall (fun x => fst x < fresh s) (sinks (remove k s)) /\
  (forall k' p', k' <> k -> In (k', p') (sinks s) -> In (k', p') (sinks (remove k s))).
Proof.
  intros s k p l N F I P. destruct (remove_split s k p N I) as [a [b [E1 E2]]]. rewrite E2. rewrite E1 in *.
  refine (conj _ (conj _ (conj _ _))).
  - rewrite map_app in *. cbn in P. apply (Permutation_cons_inv (a := p)).
    eapply Permutation_trans; [apply Permutation_middle|exact P].
  - rewrite map_app in *. cbn in N. now apply NoDup_remove in N.
  - apply Forall_app in F. destruct F as [F1 F2]. inversion F2; subst. apply Forall_app. auto.
  - intros k' p' Hne Hin. apply in_app_or in Hin. apply in_or_app. destruct Hin as [H|[H|H]]; auto. congruence.
Qed.

Lemma good_add : forall s p, NoDup (map fst (sinks s)) -> Forall (fun x => fst x < fresh s) (sinks s) ->
  NoDup (map fst (sinks s ++ [(fresh s, p)])) /\ Forall (fun x => fst x < S (fresh s)) (sinks s ++ [(fresh s, p)]).
Proof.
  intros s p N F. split.
  - rewrite map_app. cbn. apply (Permutation_NoDup (l := fresh s :: map fst (sinks s))).
    + apply Permutation_cons_append.
    + constructor; auto. intros H. apply in_map_iff in H. destruct H as [x [E H]].
      rewrite Forall_forall in F. specialize (F x H). lia.
  - apply Forall_app. split; [|repeat constructor; cbn; lia]. eapply Forall_impl; [|exact F]. cbn. intros; lia.
Qed.

Lemma places_S : forall n f, places (S n) f = Stderr :: places n f.
Proof. reflexivity. Qed.

Lemma places_file : forall n p, Permutation (places n (Some p)) (File p :: places n None).
Proof. intros. unfold places. rewrite app_nil_r. symmetry. apply Permutation_cons_append. Qed.

Lemma good_file : forall s known n f p, good s known n f -> good (set_log_file p s) known n (Some p).
Proof.
  intros s known n f p [G1 G2 G3 G4 G5].
  assert (X : exists s1, s1 = match file_sink s with Some k => remove k s | None => s end /\
    Permutation (map snd (sinks s1)) (places n None) /\ NoDup (map fst (sinks s1)) /\
    Forall (fun x => fst x < fresh s1) (sinks s1) /\
    match std_error_sink s1 with Some k => known = true /\ In (k, Stderr) (sinks s1) | None => known = false end).
  { destruct (file_sink s) as [k|] eqn:Ek; destruct f as [q|]; try contradiction; cbn in G5.
    - eexists. split; [reflexivity|]. destruct (good_remove s k (File q) (places n None) G2 G3 G5) as [H1 [H2 [H3 H4]]].
      { eapply Permutation_trans; [exact G1|apply places_file]. }
      refine (conj H1 (conj H2 (conj H3 _))). cbn. destruct (std_error_sink s) as [j|]; auto.
      destruct G4 as [Gk Gi]. split; auto. apply H4; auto. intros ->.
      assert (E : (k, Stderr) = (k, File q)); [|discriminate].
      clear - G2 G5 Gi. induction (sinks s) as [|x l IH]; [contradiction|]. cbn in G2. inversion G2; subst.
      destruct G5 as [->|G5]; destruct Gi as [->|Gi]; auto.
      + exfalso. apply H1. apply (in_map fst) in Gi. exact Gi.
      + exfalso. apply H1. apply (in_map fst) in G5. exact G5.
    - eexists. split; [reflexivity|]. auto. }
  destruct X as [s1 [E [H1 [H2 [H3 H4]]]]]. unfold set_log_file. rewrite <- E. cbn [add fst snd].
  destruct (good_add s1 (File p) H2 H3) as [A1 A2].
  constructor; cbn.
  - rewrite map_app. cbn. eapply Permutation_trans; [apply Permutation_app_tail; exact H1|].
    unfold places. rewrite app_nil_r. reflexivity.
  - exact A1.
  - exact A2.
  - destruct (std_error_sink s1); auto. destruct H4. split; auto. apply in_or_app. auto.
  - apply in_or_app. right. now left.
Qed.

Lemma good_std : forall s known n f b, good s known n f -> (known = true -> n = 1) ->
  good (log_to_stderr b s) (known && b) (if known then (if b then 1 else 0) else (if b then S n else n)) f.
Proof.
  intros s known n f b G Hn. destruct G as [G1 G2 G3 G4 G5]. unfold log_to_stderr.
  destruct b.
  - destruct (std_error_sink s) as [k|] eqn:Ek.
    + destruct G4 as [-> Gi]. cbn. rewrite <- (Hn eq_refl). constructor; auto. rewrite Ek. auto.
    + subst known. cbn. destruct (good_add s Stderr G2 G3) as [A1 A2]. constructor; cbn; auto.
      * rewrite map_app. cbn. eapply Permutation_trans; [symmetry; apply Permutation_cons_append|].
        change (Permutation (Stderr :: map snd (sinks s)) (Stderr :: places n f)). now constructor.
      * now rewrite Ek.
      * destruct (file_sink s), f; auto. apply in_or_app. auto.
  - rewrite andb_false_r. destruct (std_error_sink s) as [k|] eqn:Ek.
    + destruct G4 as [-> Gi]. rewrite (Hn eq_refl) in G1.
      destruct (good_remove s k Stderr (places 0 f) G2 G3 Gi G1) as [H1 [H2 [H3 H4]]].
      constructor; cbn; auto. destruct (file_sink s) as [j|], f as [q|]; auto. apply H4; auto.
      intros ->. assert (E : (k, Stderr) = (k, File q)); [|discriminate].
      clear - G2 G5 Gi. induction (sinks s) as [|x l IH]; [contradiction|]. cbn in G2. inversion G2; subst.
      destruct G5 as [->|G5]; destruct Gi as [->|Gi]; auto.
      * exfalso. apply H1. apply (in_map fst) in Gi. exact Gi.
      * exfalso. apply H1. apply (in_map fst) in G5. exact G5.
    + subst known. constructor; auto. now rewrite Ek.
Qed.

Lemma session_snoc : forall h c, session (h ++ [c]) = step (session h) c.
Proof. intros. unfold session. now rewrite fold_left_app. Qed.

Lemma ons_snoc : forall h c, ons (h ++ [c]) = ons h + ons [c].
Proof. intros. unfold ons. now rewrite filter_app, app_length. Qed.

Lemma session_good : forall h f, filed h f ->
  (~ In (ToStdErr false) h -> good (session h) true 1 f) /\
  (forall r, after_off h r -> good (session h) false (ons r) f).
Proof.
  intros h. pattern h. apply rev_ind; clear h.
  - intros f F. split.
    + intros _. rewrite (filed_unique _ _ _ F Fi_start). constructor; cbn.
      * reflexivity.
      * repeat constructor. intros [].
      * repeat constructor.
      * auto.
      * exact I.
    + intros r A. inversion A as [a b N E]. destruct a; discriminate.
  - intros c h IH f F. rewrite session_snoc. split.
    + intros N. assert (N' : ~ In (ToStdErr false) h) by (intros H; apply N, in_or_app; auto).
      destruct c as [b|p]; cbn [step].
      * assert (F' : filed h f).
        { inversion F as [E|h' p' E|h' b' f' H' E]; [destruct h; discriminate| |].
          - apply app_inj_tail in E. destruct E; discriminate.
          - apply app_inj_tail in E. destruct E as [-> _]. exact H'. }
        destruct b.
        -- exact (good_std _ true 1 f true (proj1 (IH f F') N') (fun _ => eq_refl)).
        -- exfalso. apply N, in_or_app. right. now left.
      * assert (E : f = Some p) by (apply (filed_unique _ _ _ F), Fi_set). subst f.
        assert (X : exists g, filed h g).
        { clear. pattern h. apply rev_ind; [eexists; constructor|]. intros [b|p] l [g G]; eexists; [apply Fi_std, G|apply Fi_set]. }
        destruct X as [g Hg]. exact (good_file _ _ _ g p (proj1 (IH g Hg) N')).
    + intros r A.
      assert (A' : (c = ToStdErr false /\ r = [] /\ ~ In (ToStdErr false) h) \/ exists r', r = r' ++ [c] /\ after_off h r').
      { inversion A as [a b N E]; subst b. destruct (@exists_last _ (ToStdErr false :: r)) as [l [y El]]; [discriminate|].
        rewrite El in E. rewrite app_assoc in E. apply app_inj_tail in E. destruct E as [E <-].
        destruct l as [|z l]; cbn in El; injection El as E1 E2.
        - left. rewrite app_nil_r in E. subst. auto.
        - right. subst z. exists l. split; [exact E2|]. rewrite <- E. constructor. exact N. }
      destruct A' as [[-> [-> N]]|[r' [-> A']]].
      * assert (F' : filed h f).
        { inversion F as [E|h' p' E|h' b' f' H' E]; [destruct h; discriminate| |].
          - apply app_inj_tail in E. destruct E; discriminate.
          - apply app_inj_tail in E. destruct E as [-> _]. exact H'. }
        exact (good_std _ true 1 f false (proj1 (IH f F') N) (fun _ => eq_refl)).
      * rewrite ons_snoc. destruct c as [b|p]; cbn [step].
        -- assert (F' : filed h f).
           { inversion F as [E|h' p' E|h' b' f' H' E]; [destruct h; discriminate| |].
             - apply app_inj_tail in E. destruct E; discriminate.
             - apply app_inj_tail in E. destruct E as [-> _]. exact H'. }
           pose proof (good_std _ false (ons r') f b (proj2 (IH f F') r' A') ltac:(discriminate)) as G.
           replace (ons r' + ons [ToStdErr b]) with (if b then S (ons r') else ons r') by (destruct b; cbn; lia). exact G.
        -- assert (E : f = Some p) by (apply (filed_unique _ _ _ F), Fi_set). subst f.
           assert (X : exists g, filed h g).
           { clear. pattern h. apply rev_ind; [eexists; constructor|]. intros [b|p] l [g G]; eexists; [apply Fi_std, G|apply Fi_set]. }
           destruct X as [g Hg]. replace (ons r' + ons [ToFile p]) with (ons r') by (cbn; lia).
           exact (good_file _ _ _ g p (proj2 (IH g Hg) r' A')).
Qed.

Lemma message_good : forall s known n f, good s known n f ->
  (places n f <> [] -> Permutation (message s) (places n f)) /\ (places n f = [] -> message s = [Stdout]).
Proof.
  intros s known n f [G _ _ _ _]. unfold message. split; intros H.
  - destruct (sinks s); [|exact G]. apply Permutation_nil in G. contradiction.
  - rewrite H in G. apply Permutation_sym, Permutation_nil in G. destruct (sinks s); [reflexivity|discriminate].
Qed.

(** Never switched off. *)
Lemma logs_on : forall h f, filed h f -> ~ In (ToStdErr false) h -> Permutation (message (session h)) (places 1 f).
Proof.
  intros h f F N. apply (message_good _ _ _ _ (proj1 (session_good h f F) N)). discriminate.
Qed.

(** Switched off: one copy for every 'on' since the first 'off'. *)
Lemma logs_off : forall h f r, filed h f -> after_off h r -> places (ons r) f <> [] ->
  Permutation (message (session h)) (places (ons r) f).
Proof. intros h f r F A. apply (message_good _ _ _ _ (proj2 (session_good h f F) r A)). Qed.

Lemma logs_none : forall h r, filed h None -> after_off h r -> ons r = 0 -> message (session h) = [Stdout].
Proof.
  intros h r F A E. apply (message_good _ _ _ _ (proj2 (session_good h None F) r A)). now rewrite E.
Qed.

Lemma refute_logs : exists h, switched h false /\ filed h (Some "log.txt"%string) /\
  In Stderr (message (session h)).
Proof.
  exists [ToFile "log.txt"%string; ToStdErr false; ToStdErr true; ToStdErr false]. repeat split.
  - apply (Sw_set [_; _; _]).
  - apply (Fi_std [_; _; _]), (Fi_std [_; _]), (Fi_std [_]), (Fi_set []).
  - cbn. auto.
Qed.
