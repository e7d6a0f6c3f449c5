(** * The registry knows exactly the live caches *)
From Coq Require Import List Bool Arith Lia Permutation.
From Verif Require Import Cache Cache_proofs Registry Registry_spec.
Import ListNotations.

Section P.
  Context {K T : Type}.
  Notation reg := (reg K T).

  Lemma live_all : forall (order : list nat) (r : reg), NoDup order ->
    (forall a, In a order -> r_live r a <> None) ->
    exists r', clear_each order r = Some r' /\ r_caches r' = r_caches r /\ r_lock r' = r_lock r /\
      (forall a, r_live r' a = if in_dec Nat.eq_dec a order then option_map clear_cache (r_live r a)
                               else r_live r a).
  Proof.
    induction order as [|a order IH]; intros r Hn Hl; cbn [clear_each].
    - exists r. auto.
    - inversion Hn as [|? ? Hna Hn']; subst. unfold clear_at.
      destruct (r_live r a) as [c|] eqn:Ea; [|exfalso; apply (Hl a); [left; reflexivity|exact Ea]].
      cbn [obind].
      destruct (IH (mkReg (r_caches r) (r_lock r) (upd Nat.eq_dec (r_live r) a (Some (clear_cache c)))) Hn')
        as [r' [H1 [H2 [H3 H4]]]].
      { cbn. intros b Hb. unfold upd. destruct (Nat.eq_dec b a); [discriminate|]. apply Hl. right. exact Hb. }
      exists r'. split; [exact H1|]. split; [exact H2|]. split; [exact H3|].
      intros b. rewrite H4. cbn [r_live]. unfold upd.
      destruct (in_dec Nat.eq_dec b order) as [Hb|Hb]; destruct (in_dec Nat.eq_dec b (a :: order)) as [Hb'|Hb'];
        destruct (Nat.eq_dec b a) as [->|Hba]; try reflexivity; try contradiction.
      + exfalso. apply Hb'. right. exact Hb.
      + rewrite Ea. reflexivity.
      + exfalso. destruct Hb' as [->|Hb']; contradiction.
      + exfalso. apply Hb'. left. reflexivity.
  Qed.

  (** The registry lock is free from the first construction on. *)
  Definition lock_ok (ops : list (rop K T)) (r : reg) : Prop :=
    ((exists o, In o ops /\ is_new o) -> r_lock r = Some false) /\
    ((forall o, In o ops -> ~ is_new o) -> r_lock r = None).

  Definition tracks (ops : list (rop K T)) (r : reg) : Prop :=
    (forall a, r_live r a = live ops a) /\ (forall a, In a (r_caches r) <-> live ops a <> None) /\
    NoDup (r_caches r) /\ lock_ok ops r.

  Lemma some_new : forall (ops : list (rop K T)) a, live ops a <> None -> exists o, In o ops /\ is_new o.
  Proof.
    induction ops as [|o ops IH]; intros a H; cbn in H; [congruence|].
    assert (Q : is_new o \/ live ops a <> None).
    { destruct o as [b c|b|b c|b|order]; cbn in *; auto; right; intros Q; rewrite Q in H; try congruence;
        destruct (a =? b); cbn in H; congruence. }
    destruct Q as [Q|Q]; [exists o; split; [left; reflexivity|exact Q]|].
    destruct (IH a Q) as [o' [H1 H2]]. exists o'. split; [right; exact H1|exact H2].
  Qed.

  Lemma new_dec : forall ops : list (rop K T),
    (exists o, In o ops /\ is_new o) \/ (forall o, In o ops -> ~ is_new o).
  Proof.
    induction ops as [|o ops IH]; [right; intros o []|].
    assert (Q : is_new o \/ ~ is_new o) by (destruct o; cbn; auto).
    destruct Q as [Q|Q]; [left; exists o; split; [left; reflexivity|exact Q]|].
    destruct IH as [[o' [H1 H2]]|IH]; [left; exists o'; split; [right; exact H1|exact H2]|].
    right. intros o' [<-|H]; auto.
  Qed.

  Lemma lock_ok_other : forall ops o (r r' : reg), ~ is_new o -> r_lock r' = r_lock r -> lock_ok ops r ->
    lock_ok (o :: ops) r'.
  Proof.
    intros ops o r r' Ho E [H1 H2]. split; rewrite E.
    - intros [o' [[<-|H] Q]]; [contradiction|]. apply H1. eauto.
    - intros H. apply H2. intros o' H'. apply H. right. exact H'.
  Qed.

  Lemma remove_NoDup : forall a (l : list nat), NoDup l -> NoDup (remove Nat.eq_dec a l).
  Proof.
    induction l as [|b l IH]; intros H; cbn; [exact H|]. inversion H; subst.
    destruct (Nat.eq_dec a b); [auto|]. constructor; [|auto].
    intros Q. apply in_remove in Q. tauto.
  Qed.

  Theorem tracks_step : forall ops o (r : reg), proper (o :: ops) -> tracks ops r ->
    exists r', rstep r o = Some r' /\ tracks (o :: ops) r'.
  Proof.
    intros ops o r [Hp Ho] [T1 [T2 [T3 T4]]].
    assert (Hfree : (exists o', In o' ops /\ is_new o') -> r_lock r = Some false) by apply T4.
    destruct o as [a c|a|a c|a|order]; cbn [rstep].
    - assert (Hl : r_lock (init_caching r) = Some false).
      { unfold init_caching. destruct T4 as [L1 L2]. destruct (new_dec ops) as [Q|Q].
        - rewrite (L1 Q). exact (L1 Q).
        - rewrite (L2 Q). reflexivity. }
      assert (Hc : r_caches (init_caching r) = r_caches r) by (unfold init_caching; destruct (r_lock r); reflexivity).
      assert (Hv : r_live (init_caching r) = r_live r) by (unfold init_caching; destruct (r_lock r); reflexivity).
      unfold add_cache, rlock. cbn [r_lock]. rewrite Hl. cbn [obind]. unfold runlock. cbn [r_lock].
      eexists. split; [reflexivity|]. cbn [r_caches r_live].
      assert (Hna : ~ In a (r_caches r)) by (rewrite T2; cbn in Ho; congruence).
      rewrite Hc. destruct (in_dec Nat.eq_dec a (r_caches r)) as [Q|_]; [contradiction|].
      split; [|split; [|split]]; cbn [r_live r_caches r_lock].
      + intros b. rewrite Hv. unfold upd. cbn [live touches effect_at].
        destruct (Nat.eq_dec b a) as [->|Hn]; [rewrite Nat.eqb_refl; reflexivity|].
        rewrite (proj2 (Nat.eqb_neq b a) Hn). apply T1.
      + intros b. cbn [live touches effect_at In]. destruct (Nat.eqb_spec b a) as [->|Hn].
        * split; [discriminate|auto].
        * rewrite <- T2. split; [intros [Q|Q]; [congruence|exact Q]|auto].
      + constructor; assumption.
      + split; [reflexivity|]. intros Q. exfalso. apply (Q (RNew a c)); [left; reflexivity|exact I].
    - pose proof (Hfree (some_new ops a Ho)) as Hl.
      unfold remove_cache, rlock. rewrite Hl. cbn [obind]. unfold runlock. cbn [r_lock obind].
      eexists. split; [reflexivity|]. split; [|split; [|split]]; cbn [r_live r_caches r_lock].
      + intros b. unfold upd. cbn [live touches effect_at].
        destruct (Nat.eq_dec b a) as [->|Hn]; [rewrite Nat.eqb_refl; reflexivity|].
        rewrite (proj2 (Nat.eqb_neq b a) Hn). apply T1.
      + intros b. cbn [live touches effect_at]. destruct (Nat.eqb_spec b a) as [->|Hn].
        * split; [intros Q; exfalso; eapply remove_In; exact Q|congruence].
        * rewrite <- T2. split; [intros Q; apply in_remove in Q; tauto|intros Q; apply in_in_remove; auto].
      + apply remove_NoDup. exact T3.
      + apply (lock_ok_other ops _ r); [intros []|cbn; congruence|exact T4].
    - rewrite T1. destruct (live ops a) as [c0|] eqn:El; [|cbn in Ho; congruence].
      eexists. split; [reflexivity|]. split; [|split; [|split]]; cbn [r_live r_caches r_lock].
      + intros b. unfold upd. cbn [live touches effect_at].
        destruct (Nat.eq_dec b a) as [->|Hn]; [rewrite Nat.eqb_refl, El; reflexivity|].
        rewrite (proj2 (Nat.eqb_neq b a) Hn). apply T1.
      + intros b. cbn [live touches effect_at]. rewrite T2. destruct (Nat.eqb_spec b a) as [->|Hn]; [|tauto].
        rewrite El. split; congruence.
      + exact T3.
      + apply (lock_ok_other ops _ r); [intros []|reflexivity|exact T4].
    - unfold clear_at. rewrite T1. destruct (live ops a) as [c0|] eqn:El; [|cbn in Ho; congruence].
      eexists. split; [reflexivity|]. split; [|split; [|split]]; cbn [r_live r_caches r_lock].
      + intros b. unfold upd. cbn [live touches effect_at].
        destruct (Nat.eq_dec b a) as [->|Hn].
        * rewrite Nat.eqb_refl, El. destruct c0; reflexivity.
        * rewrite (proj2 (Nat.eqb_neq b a) Hn). apply T1.
      + intros b. cbn [live touches effect_at]. rewrite T2. destruct (Nat.eqb_spec b a) as [->|Hn]; [|tauto].
        rewrite El. destruct c0; split; congruence.
      + exact T3.
      + apply (lock_ok_other ops _ r); [intros []|reflexivity|exact T4].
    - destruct Ho as [Hperm Hnew]. pose proof (Hfree Hnew) as Hl.
      unfold clear_caches, rlock. rewrite Hl. cbn [obind r_caches].
      assert (Hn : NoDup (order (r_caches r))).
      { eapply Permutation_NoDup; [apply Permutation_sym; apply Hperm|exact T3]. }
      assert (Hin : forall a, In a (order (r_caches r)) <-> live ops a <> None).
      { intros a. rewrite <- T2. split; apply Permutation_in; [|apply Permutation_sym]; apply Hperm. }
      destruct (live_all (order (r_caches r)) (mkReg (r_caches r) (Some true) (r_live r)) Hn) as [r' [H1 [H2 [H3 H4]]]].
      { cbn. intros a Ha. rewrite T1. apply Hin. exact Ha. }
      rewrite H1. cbn [obind]. unfold runlock. rewrite H3. cbn [r_lock].
      eexists. split; [reflexivity|]. split; [|split; [|split]]; cbn [r_live r_caches r_lock].
      + intros a. rewrite H4. cbn [live touches effect_at r_live]. rewrite T1.
        destruct (in_dec Nat.eq_dec a (order (r_caches r))) as [Q|Q].
        * destruct (live ops a) as [[e|b v]|]; reflexivity.
        * destruct (live ops a) as [c|] eqn:El; [|reflexivity]. exfalso. apply Q. apply Hin. congruence.
      + intros a. rewrite H2. cbn [live touches effect_at r_caches]. rewrite T2.
        destruct (live ops a) as [[e|b v]|]; split; congruence.
      + rewrite H2. exact T3.
      + apply (lock_ok_other ops _ r); [intros []|cbn; congruence|exact T4].
  Qed.

  Lemma rrun_app : forall l1 l2 (r : reg), rrun (l1 ++ l2) r = obind (rrun l1 r) (rrun l2).
  Proof.
    induction l1 as [|o l1 IH]; intros l2 r; cbn; [reflexivity|].
    destruct (rstep r o); cbn; [apply IH|reflexivity].
  Qed.

  Theorem tracks_run : forall ops : list (rop K T), proper ops ->
    exists r, rrun (rev ops) rinit = Some r /\ tracks ops r.
  Proof.
    induction ops as [|o ops IH]; intros Hp.
    - exists rinit. split; [reflexivity|]. split; [reflexivity|]. split; [cbn; intros; split; [tauto|congruence]|].
      split; [constructor|]. split; [intros [o [[] _]]|reflexivity].
    - destruct (IH (proj1 Hp)) as [r [Hr Ht]]. destruct (tracks_step ops o r Hp Ht) as [r' [Hs Ht']].
      exists r'. split; [|exact Ht']. cbn [rev]. rewrite rrun_app, Hr. cbn [obind rrun]. rewrite Hs. reflexivity.
  Qed.

End P.
