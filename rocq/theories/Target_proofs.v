(** Proofs about the objects of recorders. *)

Require Import List Arith Bool Lia.
From Verif Require Import Replaceable Replaceable_proofs Graph Graph_spec Script Script_spec.
From Verif Require Import Graph_proofs Graph_proofs2 Graph_proofs3 Graph_proofs4 Graph_proofs5.
From Verif Require Import Graph_proofs6 Graph_proofs7 Graph_claims_proofs Script_proofs Target Target_spec.
Import ListNotations.

Section Proofs.

Context {X V P : Type}.
Variable C : calcs X V P.

Lemma sort_eqb_refl : forall k, sort_eqb k k = true.
Proof. intros []; reflexivity. Qed.

Lemma script_snoc : forall p l c, script C p (l ++ [c]) = sstep C (script C p l) c.
Proof. intros. unfold script. now rewrite fold_left_app. Qed.

Lemma names_below : forall (s : @sst X V P) k n o, Good (past_of s) s -> names s k n = Some o -> o < fresh (graph s).
Proof.
  intros s k n o [L _ E] Q. apply E in Q. destruct (Nat.lt_ge_cases o (fresh (graph s))) as [|G]; auto.
  rewrite (proj1 (l_alloc _ _ L _ G)) in Q. destruct k; discriminate.
Qed.

Lemma step_fresh : forall s c, Good (past_of s) s -> careful_cmd s c -> fresh (graph s) <= fresh (graph (sstep C s c)).
Proof.
  intros s c G [Hc Hx]. pose proof G as [L W E]. unfold sstep, calls. cbn [graph].
  destruct (call (names s) (graph s) c) as [op|] eqn:Ec; [|cbn; lia].
  assert (Ho : careful_op (graph s) (past_of s) op) by (eapply careful_mono; [|exact Hc]; intros o; apply past_red).
  assert (H1 : fresh (graph s) <= fresh (fst (gstep C (graph s) op))) by apply (ch_fresh _ _ _ _ (step_changes C _ _ _ L W Ho)).
  destruct (defines c) as [[k n]|] eqn:Ed; [|exact H1]. destruct (replaces k) eqn:R; [|exact H1].
  destruct (names s k n) as [o|] eqn:En; [|exact H1]. cbn [fold_left].
  destruct (good_new C _ _ _ _ _ _ G Ec Ed Ho) as (L1 & W1 & E1 & Hp & Hr).
  destruct (Hr o R En) as [H2 T].
  pose proof (ch_fresh _ _ _ _ (step_changes C _ _ _ L1 W1 H2)) as H3. lia.
Qed.

Lemma step_names : forall (s : @sst X V P) c k n,
  names (sstep C s c) k n =
  match call (names s) (graph s) c, defines c with
  | Some _, Some (k', n') => if sort_eqb k k' && (n =? n') then Some (fresh (graph s)) else names s k n
  | _, _ => names s k n
  end.
Proof.
  intros s c k n. unfold sstep. cbn [names]. destruct (call _ _ c); auto. destruct (defines c) as [[k' n']|]; auto.
Qed.

Lemma careful_app : forall p l l', careful_script C p (l ++ l') -> careful_script C p l.
Proof. intros p l l' H. apply cmds_app in H. tauto. Qed.

Lemma careful_good : forall p l, careful_script C p l -> Good (past_of (script C p l)) (script C p l).
Proof. intros p l H. apply good_script; auto. apply good_start. Qed.

Lemma target_kept : forall p l l' k n o, careful_script C p (l ++ l') -> names (script C p l) k n = Some o ->
  o < fresh (graph (script C p (l ++ l'))) /\
  (names (script C p (l ++ l')) k n = Some o <-> ~ redefined_in C p l l' k n).
Proof.
  intros p l l' k n o. pattern l'. apply rev_ind; clear l'.
  - rewrite app_nil_r. intros Hc Hn. split; [eapply names_below; eauto; apply careful_good; auto|].
    split; auto. intros _ (a & c & b & E & _). destruct a; discriminate.
  - intros c l' IH Hc Hn. rewrite app_assoc in *.
    pose proof (careful_app _ _ _ Hc) as Hc'. destruct (IH Hc' Hn) as [Lt Iff].
    pose proof (careful_good _ _ Hc') as G.
    assert (Hcmd : careful_cmd (script C p (l ++ l')) c) by (apply cmds_app in Hc; destruct Hc as [_ [H _]]; exact H).
    rewrite !script_snoc. pose proof (step_fresh _ _ G Hcmd) as Hf. split; [lia|].
    rewrite step_names.
    assert (Snoc : redefined_in C p l (l' ++ [c]) k n <->
      redefined_in C p l l' k n \/ (defines c = Some (k, n) /\ call (names (script C p (l ++ l'))) (graph (script C p (l ++ l'))) c <> None)).
    { split.
      - intros (a & c' & b & E & H1 & H2). destruct (@exists_last _ (c' :: b)) as [x [y Ex]]; [discriminate|].
        rewrite Ex, app_assoc in E. apply app_inj_tail in E. destruct E as [E ->].
        destruct x as [|z x]; cbn in Ex; injection Ex as E1 E2.
        + right. rewrite app_nil_r in E. subst. auto.
        + left. subst z. exists a, c', x. auto.
      - intros [(a & c' & b & -> & H1 & H2)|[H1 H2]].
        + exists a, c', (b ++ [c]). rewrite <- app_assoc. auto.
        + exists l', c, []. auto. }
    rewrite Snoc. destruct (call _ _ c) as [op|] eqn:Ec.
    + destruct (defines c) as [[k' n']|] eqn:Ed.
      * destruct (sort_eqb k k' && (n =? n')) eqn:E.
        -- apply andb_true_iff in E. destruct E as [E1 E2]. apply sort_eqb_spec in E1. apply Nat.eqb_eq in E2. subst k' n'.
           split; [intros E; injection E as E; lia|]. intros H. exfalso. apply H. right. split; [reflexivity|discriminate].
        -- rewrite Iff. split; [|tauto]. intros H [H1|[H1 _]]; [tauto|]. injection H1 as -> ->.
           rewrite sort_eqb_refl, Nat.eqb_refl in E. discriminate.
      * rewrite Iff. split; [|tauto]. intros H [H1|[H1 _]]; [tauto|discriminate].
    + rewrite Iff. split; [|tauto]. intros H [H1|[_ H1]]; tauto.
Qed.

(** The object is the one in force exactly if the name is not defined again. *)
Lemma target_iff : forall p l l' f n o, careful_script C p (l ++ l') -> target (script C p l) f n = Some o ->
  (target (script C p (l ++ l')) f n = Some o <-> ~ redefined_in C p l l' (sort_of f) n).
Proof. intros p l l' f n o Hc Hn. exact (proj2 (target_kept p l l' (sort_of f) n o Hc Hn)). Qed.

Lemma meant_shown : forall (s : @sst X V P) f o, meant C (graph s) f (sort_of f) o (shown C s f o).
Proof. intros s [] o; constructor. Qed.

Lemma meant_only : forall (s : @sst X V P) f k o v, meant C (graph s) f k o v -> k = sort_of f /\ v = shown C s f o.
Proof. intros s f k o v M. destruct M; split; reflexivity. Qed.

Lemma figure_sort : forall f k, figure_of C f k -> inhabited P -> k = sort_of f.
Proof. intros f k H [p]. destruct (H (graph (script C p []))) as (o & v & M). destruct M; reflexivity. Qed.

Lemma target_object : forall p l l' f k n o, careful_script C p (l ++ l') -> figure_of C f k ->
  target (script C p l) f n = Some o ->
  (names (script C p (l ++ l')) k n = Some o <-> ~ redefined_in C p l l' k n).
Proof.
  intros p l l' f k n o Hc Hk Hn. rewrite (figure_sort _ _ Hk (inhabits p)).
  exact (proj2 (target_kept p l l' (sort_of f) n o Hc Hn)).
Qed.

Lemma not_redefined : forall p l l' f k n o, careful_script C p (l ++ l') -> figure_of C f k ->
  target (script C p l) f n = Some o ->
  ~ redefined_in C p l l' k n -> up_to_date C p l l' f n.
Proof.
  intros p l l' f k n o Hc Hk Hn Hr. exists o, k, o. split; [exact Hn|].
  split; [now apply (target_object p l l' f k n o Hc Hk Hn)|].
  rewrite (figure_sort _ _ Hk (inhabits p)). apply meant_shown.
Qed.

End Proofs.

(** A demand parameter is redefined after a recorder of it was made. *)
Definition before : list (@cmd nat nat) := [DefDet 0 1; DefDet 1 2; DefProb 0 0 1 1; DefIm 0 0; DefEdp 0 0 0].
Definition later : list (@cmd nat nat) := [DefProb 1 5 0 0; DefEdp 0 0 1].

Lemma refute_target : exists (l l' : list (@cmd nat nat)) f n,
  careful_script adding 0 (l ++ l') /\ target (script adding 0 l) f n <> None /\ ~ up_to_date adding 0 l l' f n.
Proof.
  exists before, later, (RLambda 1), 0. split; [apply scriptb_ok; vm_compute; reflexivity|].
  split; [discriminate|]. intros (o & k & o' & H1 & H2 & H3). vm_compute in H1.
  injection H1 as <-. destruct (meant_only _ _ _ _ _ _ H3) as [-> E]. vm_compute in H2. injection H2 as <-.
  vm_compute in E. discriminate.
Qed.
