(** Proofs about the object graph: the contents of structures. *)

Require Import List Arith Bool Lia.
From Verif Require Import Replaceable Replaceable_proofs Graph Graph_spec.
From Verif Require Import Graph_proofs Graph_proofs2 Graph_proofs3 Graph_proofs4.
Import ListNotations.

Section Proofs.

Context {X V P : Type}.
Variable C : calcs X V P.
Notation state := (@st X V P).
Implicit Types s : state.

(** ** Notification leaves everything but caches alone *)

Record still s s' : Prop := {
  st_fresh : fresh s' = fresh s;
  st_node : node_of s' = node_of s;
  st_ptr : ptr s' = ptr s;
  st_entries : entries s' = entries s
}.

Lemma still_refl : forall s, still s s.
Proof. constructor; auto. Qed.
Lemma still_trans : forall a b c, still a b -> still b c -> still a c.
Proof. intros a b c [] []. constructor; congruence. Qed.

Lemma still_fold : forall (f : state -> slot -> state), (forall s sl, still s (f s sl)) ->
  forall l s, still s (fold_left f l s).
Proof.
  intros f H. induction l as [|a r IH]; intros s; cbn; [apply still_refl|].
  eapply still_trans; [apply H|apply IH].
Qed.

Lemma still_check : forall a s, still s (check_alive a s).
Proof. intros. unfold check_alive. destruct (node_of s a); constructor; reflexivity. Qed.

Lemma still_touch : forall n sl s, still s (touch n sl s).
Proof.
  induction n as [|n IH]; intros sl s; cbn [touch].
  - assert (H : still s (wipe (clears sl) (check_alive (owner sl) s))).
    { eapply still_trans; [apply still_check|]. constructor; reflexivity. }
    destruct (notifies sl); auto. eapply still_trans; [exact H|]. constructor; reflexivity.
  - assert (H : still s (wipe (clears sl) (check_alive (owner sl) s))).
    { eapply still_trans; [apply still_check|]. constructor; reflexivity. }
    destruct (notifies sl); auto. eapply still_trans; [exact H|]. apply still_fold. auto.
Qed.

Lemma still_notify : forall o s, still s (notify o s).
Proof. intros. apply still_fold. intros; apply still_touch. Qed.

Lemma still_unregister : forall s sl, still s (unregister s sl).
Proof. intros. unfold unregister. destruct (ptr s sl); constructor; reflexivity. Qed.

Lemma still_cch : forall s s', cch s s' -> still s s'.
Proof. intros s s' []. constructor; auto. Qed.

(** ** The invariant *)

Record Pl s : Prop := {
  p_owner : forall sl x, ptr s sl = Some x -> owner sl < fresh s /\ x < fresh s /\ match sl with SEntry _ k => k < fresh s | _ => True end;
  p_entry : forall t k, In k (entries s t) -> ptr s (SEntry t k) <> None;
  p_alloc : forall a, fresh s <= a -> node_of s a = None /\ entries s a = [];
  p_grp : forall g, kd (node_of s g) = 7 -> exists e, ptr s (SEdp g) = Some e /\ kd (node_of s e) = 4;
  p_edp : forall e, kd (node_of s e) = 4 -> ptr s (SBase e) <> None;
  p_entry_grp : forall t k g, ptr s (SEntry t k) = Some g -> kd (node_of s g) = 7;
  p_measure : forall t k g, In k (entries s t) -> ptr s (SEntry t k) = Some g ->
    im_of_grp s g = ptr s (SIm t)
}.

Lemma pl_referenced : forall s sl o, Pl s -> ptr s sl = Some o -> referenced s o = true.
Proof.
  intros s sl o H E. destruct (p_owner _ H _ _ E) as (Hw & _ & Hk).
  unfold referenced. apply existsb_exists. exists (owner sl).
  split; [apply in_seq; lia|]. apply existsb_exists. exists sl.
  split; [|rewrite E; apply Nat.eqb_refl].
  unfold own_slots. destruct sl; cbn [owner]; try (cbn; tauto).
  apply in_or_app. right. apply in_map. apply in_seq. lia.
Qed.

Lemma pl_im_of_grp : forall s g, Pl s -> kd (node_of s g) = 7 -> exists e i,
  ptr s (SEdp g) = Some e /\ ptr s (SBase e) = Some i /\ im_of_grp s g = Some i.
Proof.
  intros s g H K. destruct (p_grp _ H g K) as (e & E & Ke). pose proof (p_edp _ H e Ke) as Hb.
  destruct (ptr s (SBase e)) as [i|] eqn:Eb; [|congruence].
  exists e, i. unfold im_of_grp. rewrite E. auto.
Qed.

Lemma pl_st0 : forall p, Pl (st0 p).
Proof. intros. constructor; cbn; intros; try discriminate; try tauto; auto. Qed.


Lemma pl_still : forall s s', still s s' -> Pl s -> Pl s'.
Proof.
  intros s s' [] []. constructor; unfold im_of_grp in *;
    rewrite ?st_ptr0, ?st_node0, ?st_entries0, ?st_fresh0; auto.
Qed.

Lemma pl_kinds : forall s n, Pl s -> (forall a, kd (n a) = kd (node_of s a)) ->
  Pl (set_node_of n s).
Proof.
  intros s n [] K. constructor; cbn; auto.
  - intros a Ha. destruct (p_alloc0 a Ha) as [Q1 Q2]. split; auto.
    specialize (K a). rewrite Q1 in K. destruct (n a) as [[]|]; try discriminate; auto.
  - intros g. rewrite K. intros Q. destruct (p_grp0 g Q) as (e & E1 & E2). exists e. rewrite K. auto.
  - intros e. rewrite K. auto.
  - intros t k g E. rewrite K. eauto.
Qed.

Lemma pl_new : forall s s', Pl s -> fresh s' = S (fresh s) -> entries s' = entries s ->
  (forall sl, owner sl <> fresh s -> ptr s' sl = ptr s sl) ->
  (forall a, a <> fresh s -> node_of s' a = node_of s a) ->
  (forall sl x, owner sl = fresh s -> ptr s' sl = Some x -> x < fresh s /\ tk sl <> 7) ->
  (kd (node_of s' (fresh s)) = 7 -> exists e, ptr s' (SEdp (fresh s)) = Some e /\ kd (node_of s e) = 4) ->
  (kd (node_of s' (fresh s)) = 4 -> ptr s' (SBase (fresh s)) <> None) -> Pl s'.
Proof.
  intros s s' H H1 H2 H3 H4 H5 H6 H7. pose proof H as [P1 P2 P3 P4 P5 P6 P7].
  assert (Hf : node_of s (fresh s) = None) by (apply P3; auto).
  constructor.
  - intros sl x E. destruct (Nat.eq_dec (owner sl) (fresh s)) as [Q|Q].
    + destruct (H5 _ _ Q E) as [Q1 Q2]. split; [lia|]. split; [lia|]. destruct sl; auto. exfalso. apply Q2; auto.
    + rewrite H3 in E by auto. destruct (P1 _ _ E) as (Q1 & Q2 & Q3). split; [lia|]. split; [lia|].
      destruct sl; auto. lia.
  - intros t k. rewrite H2. intros I. pose proof (P2 _ _ I) as Q. destruct (Nat.eq_dec t (fresh s)) as [->|N].
    + rewrite (proj2 (P3 (fresh s) (le_n _))) in I. destruct I.
    + rewrite H3 by auto. auto.
  - intros a Ha. rewrite H4 by lia. rewrite H2. apply P3. lia.
  - intros g K. destruct (Nat.eq_dec g (fresh s)) as [->|N].
    + destruct (H6 K) as (e & E1 & E2). exists e. split; auto. rewrite H4; auto. intros ->. rewrite Hf in E2. discriminate.
    + rewrite H4 in K by auto. destruct (P4 _ K) as (e & E1 & E2). exists e. rewrite H3 by auto. split; auto.
      rewrite H4; auto. intros ->. rewrite Hf in E2. discriminate.
  - intros e K. destruct (Nat.eq_dec e (fresh s)) as [->|N]; [auto|]. rewrite H3 by auto. apply P5. rewrite <- H4; auto.
  - intros t k g E. destruct (Nat.eq_dec t (fresh s)) as [->|N].
    + destruct (H5 (SEntry (fresh s) k) g eq_refl E) as [_ Q]. exfalso. apply Q; auto.
    + rewrite H3 in E by auto. rewrite H4; [eauto|]. apply P1 in E. lia.
  - intros t k g. rewrite H2. intros I E. destruct (Nat.eq_dec t (fresh s)) as [->|N].
    + rewrite (proj2 (P3 (fresh s) (le_n _))) in I. destruct I.
    + rewrite H3 in E by auto. rewrite (H3 (SIm t)) by auto. rewrite <- (P7 _ _ _ I E).
      assert (K : kd (node_of s g) = 7) by eauto. destruct (P4 _ K) as (e & E1 & E2).
      unfold im_of_grp. rewrite (H3 (SEdp g)) by (cbn; intros ->; rewrite Hf in K; discriminate).
      rewrite E1. apply H3. cbn. intros ->. rewrite Hf in E2; discriminate.
Qed.

Lemma pl_destroy : forall s o, Pl s -> referenced s o = false ->
  Pl (release o (fold_left unregister (dtor_slots s o) s)).
Proof.
  intros s o H Er. set (s1 := fold_left unregister (dtor_slots s o) s).
  assert (H1 : Pl s1) by (eapply pl_still; [apply still_fold, still_unregister|exact H]).
  assert (Hn : forall sl, ptr s1 sl <> Some o).
  { intros sl E. unfold s1 in E. rewrite (st_ptr _ _ (still_fold unregister still_unregister _ s)) in E.
    rewrite (pl_referenced _ _ _ H E) in Er. discriminate. }
  clear H Er. pose proof H1 as [P1 P2 P3 P4 P5 P6 P7].
  assert (Hp : forall sl, owner sl <> o -> ptr (release o s1) sl = ptr s1 sl).
  { intros sl Hs. unfold release. cbn. rewrite (proj2 (Nat.eqb_neq _ _) Hs). destruct sl; auto. }
  assert (Hw : forall sl x, ptr (release o s1) sl = Some x -> ptr s1 sl = Some x).
  { intros sl x. unfold release. cbn. destruct sl; auto; destruct (_ =? o); try discriminate; auto. }
  assert (He : forall t k, ptr (release o s1) (SEntry t k) = ptr s1 (SEntry t k)) by reflexivity.
  assert (Hd : node_of (release o s1) = upd (node_of s1) o None) by reflexivity.
  assert (Hr : entries (release o s1) = upd (entries s1) o []) by reflexivity.
  assert (Hf : fresh (release o s1) = fresh s1) by reflexivity.
  generalize dependent (release o s1). intros s2 Hp Hw He Hd Hr Hf.
  constructor.
  - intros sl x E. apply Hw, P1 in E. rewrite Hf. exact E.
  - intros t k. rewrite He, Hr. unfold upd. destruct (t =? o); [intros []|apply P2].
  - intros a. rewrite Hf, Hd, Hr. intros Ha. unfold upd. destruct (P3 a Ha) as [-> ->]. destruct (a =? o); auto.
  - intros g. rewrite Hd. unfold upd at 1. destruct (Nat.eqb_spec g o); [discriminate|].
    intros K. destruct (P4 g K) as (e & E1 & E2). exists e. rewrite Hp by auto. split; auto.
    rewrite upd_other; auto. intros ->. eapply Hn; eauto.
  - intros e. rewrite Hd. unfold upd at 1. destruct (Nat.eqb_spec e o); [discriminate|].
    intros K. rewrite Hp by auto. auto.
  - intros t k g. rewrite He. intros E. rewrite Hd, upd_other; [eauto|].
    intros ->. eapply Hn; eauto.
  - intros t k g. rewrite He, Hr. unfold upd. destruct (Nat.eqb_spec t o); [intros []|].
    intros I E. rewrite (Hp (SIm t)) by auto. rewrite <- (P7 _ _ _ I E).
    assert (K : kd (node_of s1 g) = 7) by eauto. destruct (P4 _ K) as (e & E1 & E2).
    unfold im_of_grp. rewrite (Hp (SEdp g)) by (cbn; intros ->; eapply Hn; eauto).
    rewrite E1. apply Hp. cbn. intros ->. eapply Hn; eauto.
Qed.

Lemma im_grp_same : forall s s' g, (forall sl, is_im_slot sl = false -> tk sl <> 7 -> ptr s' sl = ptr s sl) ->
  im_of_grp s' g = im_of_grp s g.
Proof.
  intros s s' g H. unfold im_of_grp. rewrite (H (SEdp g)) by (auto; discriminate).
  destruct (ptr s (SEdp g)); auto. apply H; auto; discriminate.
Qed.

Lemma pl_add : forall s t g, Pl s -> kd (node_of s t) = 8 -> kd (node_of s g) = 7 -> Pl (fst (do_add t g s)).
Proof.
  intros s t g H Kt Kg. pose proof H as [P1 P2 P3 P4 P5 P6 P7].
  pose proof (add_changes t g s) as A. cbn zeta in A.
  destruct (pl_im_of_grp _ _ H Kg) as (e & i & E1 & E2 & Ei).
  assert (Hl : forall o, kd (node_of s o) <> 0 -> o < fresh s).
  { intros o K. destruct (Nat.lt_ge_cases o (fresh s)) as [|Q]; auto. rewrite (proj1 (P3 _ Q)) in K. cbn in K. congruence. }
  assert (Hi : i < fresh s) by (apply P1 in E2; tauto).
  destruct (do_add t g s) as [s' ok] eqn:Ed. cbn [fst snd] in *.
  destruct A as (A1 & A2 & _ & A3 & A4 & A5 & A6 & A7 & A8 & A9 & A10 & A11).
  destruct ok; [|rewrite A5; auto; congruence].
  destruct (A6 eq_refl) as (A61 & A62 & A63). specialize (A10 eq_refl).
  assert (Hs : forall sl, is_im_slot sl = false -> tk sl <> 7 -> ptr s' sl = ptr s sl).
  { intros sl Q1 Q2. destruct (A4 sl) as [|[->|[-> _]]]; auto; try discriminate. exfalso; apply Q2; auto. }
  assert (He : forall u k, SEntry u k <> SEntry t (fresh s) -> ptr s' (SEntry u k) = ptr s (SEntry u k)).
  { intros u k N. destruct (A4 (SEntry u k)) as [|[Q|[Q _]]]; auto; congruence. }
  assert (Hm : forall u, u <> t -> ptr s' (SIm u) = ptr s (SIm u)).
  { intros u N. destruct (A4 (SIm u)) as [|[Q|[Q _]]]; auto; congruence. }
  constructor.
  - intros sl x E. destruct (A4 sl) as [Q|[->|[-> _]]].
    + rewrite Q in E. destruct (P1 _ _ E) as (Q1 & Q2 & Q3). split; [lia|]. split; [lia|]. destruct sl; auto; lia.
    + rewrite A63, Ei in E. inversion E; subst. cbn. assert (t < fresh s) by (apply Hl; lia). repeat split; auto; lia.
    + rewrite A61 in E. inversion E; subst. cbn. assert (t < fresh s) by (apply Hl; lia).
      assert (x < fresh s) by (apply Hl; lia). lia.
  - intros u k. destruct (Nat.eq_dec u t) as [->|N].
    + rewrite A62. intros I. apply in_app_or in I. destruct I as [I|[<-|[]]]; [|congruence].
      rewrite He; [auto|]. intros Q. inversion Q; subst. pose proof (P2 _ _ I) as Q2.
      destruct (ptr s (SEntry t (fresh s))) eqn:Q3; [|congruence]. apply P1 in Q3. lia.
    + rewrite (A7 u N), He by congruence. auto.
  - intros a Ha. rewrite A2. destruct (P3 a ltac:(lia)) as [Q1 Q2]. split; auto.
    rewrite A7; auto. intros ->. rewrite Q1 in Kt. discriminate.
  - intros x. rewrite A2. intros K. destruct (P4 _ K) as (e' & Q1 & Q2). exists e'.
    rewrite Hs by (auto; discriminate). auto.
  - intros x. rewrite A2. intros K. rewrite Hs by (auto; discriminate). auto.
  - intros u k x E. rewrite A2. destruct (slot_dec (SEntry u k) (SEntry t (fresh s))) as [Q|N].
    + rewrite Q, A61 in E. inversion E; subst. auto.
    + rewrite He in E by auto. eauto.
  - intros u k x I E. rewrite (im_grp_same s s' x Hs). destruct (Nat.eq_dec u t) as [->|N].
    + rewrite A62 in I. apply in_app_or in I. destruct I as [I|[<-|[]]].
      * assert (N : SEntry t k <> SEntry t (fresh s)).
        { intros Q. inversion Q; subst. pose proof (P2 _ _ I) as Q2.
          destruct (ptr s (SEntry t (fresh s))) eqn:Q3; [|congruence]. apply P1 in Q3. lia. }
        rewrite He in E by auto. rewrite (P7 _ _ _ I E). symmetry. apply A11.
        intros Q. rewrite Q in I. destruct I.
      * rewrite A61 in E. inversion E; subst. auto.
    + rewrite (A7 u N) in I. rewrite He in E by congruence. rewrite Hm by auto. eauto.
Qed.

Lemma pl_entries_sub : forall s t l, Pl s -> (forall k, In k l -> In k (entries s t)) ->
  Pl (set_entries (upd (entries s) t l) s).
Proof.
  intros s t l [] Hl. constructor; cbn; auto.
  - intros u k. unfold upd. destruct (Nat.eqb_spec u t) as [->|]; auto.
  - intros a Ha. destruct (p_alloc0 a Ha) as [Q1 Q2]. split; auto. unfold upd. destruct (Nat.eqb_spec a t) as [->|]; auto.
    destruct l as [|x r]; auto. exfalso. pose proof (Hl x (or_introl eq_refl)) as I. rewrite Q2 in I. destruct I.
  - intros u k g. unfold upd. destruct (Nat.eqb_spec u t) as [->|]; eauto.
Qed.


Lemma register_same : forall sl o s, ptr (register sl o s) sl = Some o.
Proof. intros. unfold register. cbn. apply us_same. Qed.

Ltac regs Q Hz :=
  repeat match type of Q with
  | ptr (register ?S0 ?o ?s0) ?sl = _ =>
      let N := fresh "N" in
      destruct (slot_dec sl S0) as [->|N];
        [rewrite register_same in Q; inversion Q; subst; split; [auto|discriminate]
        |rewrite register_ptr in Q by auto]
  end;
  try (cbn in Q; rewrite Hz in Q by auto; discriminate).

Lemma pl_step : forall s op, Pl s -> plain_op op -> Pl (fst (gstep C s op)).
Proof.
  intros s op H Hp.
  assert (Hl : forall o, kd (node_of s o) <> 0 -> o < fresh s).
  { intros o K. destruct (Nat.lt_ge_cases o (fresh s)) as [|Q]; auto. rewrite (proj1 (p_alloc _ H _ Q)) in K. cbn in K. congruence. }
  assert (Hz : forall sl, owner sl = fresh s -> ptr s sl = None).
  { intros sl E. destruct (ptr s sl) eqn:Q; auto. apply (p_owner _ H) in Q. lia. }
  pose proof (is_kd s) as IK.
  destruct op; cbn [gstep].
  all: try solve [cbn [fst]; apply (pl_new s); auto; try reflexivity; cbn;
    [intros ? N; apply upd_other; auto
    |intros sl x E; rewrite Hz by auto; discriminate
    |rewrite upd_same; discriminate
    |rewrite upd_same; discriminate]].
  - destruct (is_det s mu) eqn:E1; [|exact H]. destruct (is_det s sigma) eqn:E2; [|exact H]. cbn [andb fst].
    assert (K1 : mu < fresh s) by (apply Hl; rewrite (proj1 (IK mu) E1); auto).
    assert (K2 : sigma < fresh s) by (apply Hl; rewrite (proj1 (IK sigma) E2); auto).
    apply (pl_new s); auto; try reflexivity.
    + intros sl N. rewrite !register_ptr by (intros ->; apply N; reflexivity). reflexivity.
    + intros a0 N. cbn. apply upd_other; auto.
    + intros sl x E Q. regs Q Hz.
    + cbn. rewrite upd_same. discriminate.
    + cbn. rewrite upd_same. discriminate.
  - destruct (is_det s f) eqn:E1; [|exact H]. cbn [andb fst].
    assert (K1 : f < fresh s) by (apply Hl; rewrite (proj1 (IK f) E1); auto).
    apply (pl_new s); auto; try reflexivity.
    + intros sl N. rewrite !register_ptr by (intros ->; apply N; reflexivity). reflexivity.
    + intros a0 N. cbn. apply upd_other; auto.
    + intros sl x E Q. regs Q Hz.
    + cbn. rewrite upd_same. discriminate.
    + cbn. rewrite upd_same. discriminate.
  - destruct (is_im s base) eqn:E1; [|exact H]. destruct (is_prob s dep) eqn:E2; [|exact H]. cbn [andb fst].
    assert (K1 : base < fresh s) by (apply Hl; destruct (IK base) as (_ & _ & Q & _); rewrite (Q E1); auto).
    assert (K2 : dep < fresh s) by (apply Hl; destruct (IK dep) as (_ & Q & _); rewrite (Q E2); auto).
    apply (pl_new s); auto; try reflexivity.
    + intros sl N. rewrite !register_ptr by (intros ->; apply N; reflexivity). reflexivity.
    + intros a0 N. cbn. apply upd_other; auto.
    + intros sl x E Q. regs Q Hz.
    + cbn. rewrite upd_same. discriminate.
    + intros _. rewrite register_ptr by discriminate. rewrite register_same. discriminate.
  - destruct (is_im s base) eqn:E1; [|exact H]. destruct (is_prob s dep) eqn:E2; [|exact H].
    destruct (is_prob s second) eqn:E3; [|exact H]. cbn [andb fst].
    assert (K1 : base < fresh s) by (apply Hl; destruct (IK base) as (_ & _ & Q & _); rewrite (Q E1); auto).
    assert (K2 : dep < fresh s) by (apply Hl; destruct (IK dep) as (_ & Q & _); rewrite (Q E2); auto).
    assert (K3 : second < fresh s) by (apply Hl; destruct (IK second) as (_ & Q & _); rewrite (Q E3); auto).
    apply (pl_new s); auto; try reflexivity.
    + intros sl N. rewrite !register_ptr by (intros ->; apply N; reflexivity). reflexivity.
    + intros a0 N. cbn. apply upd_other; auto.
    + intros sl x E Q. regs Q Hz.
    + cbn. rewrite upd_same. discriminate.
    + intros _. rewrite !register_ptr by discriminate. rewrite register_same. discriminate.
  - destruct (is_edp s e) eqn:E1; [|exact H]. destruct (is_frag s f) eqn:E2; [|exact H].
    destruct (opt_loss s cost) eqn:E3; [|exact H]. destruct (opt_loss s delay) eqn:E4; [|exact H]. cbn [andb fst].
    assert (Ke : kd (node_of s e) = 4) by (destruct (IK e) as (_ & _ & _ & Q & _); auto).
    assert (K1 : e < fresh s) by (apply Hl; rewrite Ke; auto).
    assert (K2 : f < fresh s) by (apply Hl; destruct (IK f) as (_ & _ & _ & _ & Q & _); rewrite (Q E2); auto).
    assert (K3 : forall c, opt_loss s (Some c) = true -> c < fresh s).
    { intros c Q. apply Hl. destruct (IK c) as (_ & _ & _ & _ & _ & Q2 & _). rewrite (Q2 Q). auto. }
    destruct cost as [c|]; [apply K3 in E3|clear E3]; (destruct delay as [d|]; [apply K3 in E4|clear E4]); clear K3.
    all: apply (pl_new s); auto; try reflexivity;
      [intros sl N; rewrite !register_ptr by (intros ->; apply N; reflexivity); reflexivity
      |intros a0 N; cbn; apply upd_other; auto
      |intros sl x E Q; regs Q Hz
      |intros _; exists e; rewrite !register_ptr by discriminate; rewrite register_same; auto
      |cbn; rewrite upd_same; discriminate].
  - destruct (node_of s i) as [[]|] eqn:E; try exact H. cbn [fst].
    eapply pl_still; [apply still_notify|]. apply pl_kinds.
    + eapply pl_still; [|exact H]. constructor; reflexivity.
    + intros a. cbn. unfold upd. destruct (Nat.eqb_spec a i) as [->|]; auto. rewrite E. auto.
  - destruct (node_of s i) as [[]|] eqn:E; try exact H. cbn [fst].
    eapply pl_still; [apply still_notify|]. apply pl_kinds.
    + eapply pl_still; [|exact H]. constructor; reflexivity.
    + intros a. cbn. unfold upd. destruct (Nat.eqb_spec a i) as [->|]; auto. rewrite E. auto.
  - destruct Hp.
  - destruct (node_of s o) eqn:E; try exact H. destruct (referenced s o) eqn:R; [exact H|].
    cbn [fst]. apply pl_destroy; auto.
  - destruct (is_str s t) eqn:E1; [|exact H]. destruct (is_grp s g) eqn:E2; [|exact H]. cbn [andb fst].
    assert (K : Pl (fst (do_add t g s))).
    { apply pl_add; auto; [destruct (IK t) as (_ & _ & _ & _ & _ & _ & _ & Q); auto|destruct (IK g) as (_ & _ & _ & _ & _ & _ & Q & _); auto]. }
    destruct (do_add t g s). exact K.
  - destruct (is_str s t && is_grp s g); [|exact H]. cbn [fst]. apply pl_entries_sub; auto. intros k. apply drop_first_in.
  - destruct (node_of s t) as [[]|] eqn:E; try exact H. cbn [fst]. apply pl_kinds; auto.
    intros a. unfold upd. destruct (Nat.eqb_spec a t) as [->|]; auto. rewrite E. auto.
  - destruct (node_of s t) as [[]|] eqn:E; try exact H. cbn [fst]. apply pl_kinds; auto.
    intros a. unfold upd. destruct (Nat.eqb_spec a t) as [->|]; auto. rewrite E. auto.
  - cbn [fst]. eapply pl_still; [|exact H]. constructor; reflexivity.
  - cbn [fst]. eapply pl_still; [|exact H]. constructor; reflexivity.
  - destruct (do_query C q s) as [s' v] eqn:E. cbn [fst]. eapply pl_still; [|exact H].
    apply still_cch. change s' with (fst (s', v)). rewrite <- E. apply cch_query.
Qed.

Lemma pl_after : forall p h, Forall plain_op h -> Pl (gafter C p h).
Proof.
  intros p h. unfold gafter. generalize (pl_st0 p). generalize (st0 p : state).
  induction h as [|op r IH]; intros s0 H0 Hh; cbn; auto.
  inversion Hh; subst. apply IH; auto. apply pl_step; auto.
Qed.

(** ** One measure *)

Lemma groups_in : forall s t o, In o (groups s t) <-> exists k, In k (entries s t) /\ o = ptr s (SEntry t k).
Proof.
  intros. unfold groups. rewrite in_map_iff. split; intros (k & Q1 & Q2); exists k; auto.
Qed.

Lemma one_measure : forall s t, Pl s -> exists i, forall o, In o (groups s t) ->
  exists g e, o = Some g /\ ptr s (SEdp g) = Some e /\ ptr s (SBase e) = Some i.
Proof.
  intros s t H. destruct (ptr s (SIm t)) as [i|] eqn:E.
  - exists i. intros o Ho. apply groups_in in Ho. destruct Ho as (k & I & ->).
    pose proof (p_entry _ H _ _ I) as Q. destruct (ptr s (SEntry t k)) as [g|] eqn:Eg; [|congruence].
    destruct (pl_im_of_grp s g H (p_entry_grp _ H _ _ _ Eg)) as (e & i' & Q1 & Q2 & Q3).
    pose proof (p_measure _ H _ _ _ I Eg) as Q4. exists g, e. repeat split; auto. congruence.
  - exists 0. intros o Ho. apply groups_in in Ho. destruct Ho as (k & I & ->).
    pose proof (p_entry _ H _ _ I) as Q. destruct (ptr s (SEntry t k)) as [g|] eqn:Eg; [|congruence].
    destruct (pl_im_of_grp s g H (p_entry_grp _ H _ _ _ Eg)) as (e & i' & Q1 & Q2 & Q3).
    pose proof (p_measure _ H _ _ _ I Eg) as Q4. congruence.
Qed.

Lemma add_verdict : forall s t g, Pl s -> kd (node_of s t) = 8 -> kd (node_of s g) = 7 ->
  (snd (gstep C s (AddGrp t g)) = Done \/ snd (gstep C s (AddGrp t g)) = Thrown) /\
  (snd (gstep C s (AddGrp t g)) = Done <->
     forall g', In (Some g') (groups s t) -> im_of_grp s g' = im_of_grp s g) /\
  (snd (gstep C s (AddGrp t g)) = Thrown -> fst (gstep C s (AddGrp t g)) = s).
Proof.
  intros s t g H Kt Kg. cbn [gstep].
  assert (E1 : is_str s t = true) by (unfold is_str; destruct (node_of s t) as [[]|]; try discriminate; auto).
  assert (E2 : is_grp s g = true) by (unfold is_grp; destruct (node_of s g) as [[]|]; try discriminate; auto).
  rewrite E1, E2. cbn [andb]. pose proof (add_changes t g s) as A. cbn zeta in A.
  destruct (pl_im_of_grp s g H Kg) as (e & i & Q1 & Q2 & Q3).
  assert (Hd : snd (do_add t g s) = true <-> forall g', In (Some g') (groups s t) -> im_of_grp s g' = im_of_grp s g).
  { unfold do_add. destruct (entries s t) as [|k r] eqn:Ee.
    - rewrite Q3. assert (Ei : im_of_grp (register (SIm t) i s) g = Some i).
      { unfold im_of_grp. rewrite !register_ptr by discriminate. rewrite Q1. rewrite register_ptr by discriminate. auto. }
      rewrite Ei, register_same. cbn [opt_eqb]. rewrite Nat.eqb_refl. cbn [snd]. split; auto. intros _ g'.
      unfold groups. rewrite Ee. intros [].
    - assert (Eo : snd (if opt_eqb (im_of_grp s g) (ptr s (SIm t)) then (s, true) else (s, false)) = true <-> forall g' : nat, In (Some g') (groups s t) -> im_of_grp s g' = im_of_grp s g).
      { split.
        - intros Q g' Hg. destruct (opt_eqb (im_of_grp s g) (ptr s (SIm t))) eqn:Eo; [|discriminate].
          apply opt_eqb_spec in Eo. rewrite Eo. apply groups_in in Hg. destruct Hg as (k' & I & Eg).
          eapply p_measure; eauto.
        - intros Q. assert (I : In k (entries s t)) by (rewrite Ee; left; auto).
          pose proof (p_entry _ H _ _ I) as Q5. destruct (ptr s (SEntry t k)) as [g'|] eqn:Eg; [|congruence].
          assert (Q6 : im_of_grp s g' = im_of_grp s g) by (apply Q; apply groups_in; exists k; auto).
          rewrite (p_measure _ H _ _ _ I Eg) in Q6. rewrite Q6.
          rewrite (proj2 (opt_eqb_spec _ _) eq_refl). auto. }
      rewrite <- Eo. destruct (opt_eqb (im_of_grp s g) (ptr s (SIm t))); cbn [snd]; tauto. }
  destruct (do_add t g s) as [s' ok] eqn:Ed. cbn [fst snd] in *.
  destruct A as (_ & _ & _ & _ & _ & A5 & _).
  refine (conj _ (conj _ _)).
  - destruct ok; auto.
  - rewrite <- Hd. destruct ok; split; intros; auto; discriminate.
  - destruct ok; [discriminate|]. intros _. apply A5; auto. congruence.
Qed.

(** ** Contents *)

Lemma taken_cons : forall (A : Type) (g x : A) l l', x <> g -> taken g l l' -> taken g (x :: l) (x :: l').
Proof.
  intros A g x l l' N T. destruct T as [l Q|l1 l2 Q].
  - apply taken_absent. intros [?|?]; auto.
  - change (x :: l1 ++ g :: l2) with ((x :: l1) ++ g :: l2).
    change (x :: l1 ++ l2) with ((x :: l1) ++ l2). apply taken_first. intros [?|?]; auto.
Qed.

Lemma taken_fun : forall (g : nat) l a b, taken g l a -> taken g l b -> a = b.
Proof.
  intros g. induction l as [|x l IH]; intros a b Ha Hb.
  - inversion Ha as [l Q|l1 l2 Q Q2]; [|destruct l1; discriminate].
    inversion Hb as [l' Q'|l1 l2 Q' Q2]; [auto|destruct l1; discriminate].
  - assert (K : forall c, taken g (x :: l) c -> (x = g /\ c = l) \/ (x <> g /\ exists c', c = x :: c' /\ taken g l c')).
    { clear. intros c H. inversion H as [l0 Q|l1 l2 Q Q2].
      - right. split; [intros ->; apply Q; left; auto|]. exists l. split; auto. constructor. intros I. apply Q. right; auto.
      - destruct l1 as [|y l1]; cbn in *; inversion Q2; subst; auto. right. split; [intros ->; tauto|].
        exists (l1 ++ l2). split; auto. apply taken_first. tauto. }
    destruct (K _ Ha) as [[Q1 Q2]|(Q1 & a' & Q2 & Q3)]; destruct (K _ Hb) as [[Q4 Q5]|(Q4 & b' & Q5 & Q6)]; try congruence.
    subst. f_equal. auto.
Qed.

Lemma taken_some : forall (g : nat) l, exists l', taken g l l'.
Proof.
  intros g. induction l as [|x l (l' & IH)].
  - exists []. constructor. intros [].
  - destruct (Nat.eq_dec x g) as [->|N].
    + exists l. apply (taken_first g [] l). intros [].
    + exists (x :: l'). apply taken_cons; auto.
Qed.

Lemma drop_first_taken : forall (f : nat -> option nat) g l m, map f l = map Some m ->
  exists m', taken g m m' /\ map f (drop_first f g l) = map Some m'.
Proof.
  intros f g. induction l as [|k r IH]; intros [|x m] E; cbn in *; try discriminate.
  - exists []. split; auto. constructor. intros [].
  - inversion E as [[E1 E2]]. destruct (IH _ E2) as (m' & Q1 & Q2). rewrite E1.
    destruct (Nat.eqb_spec x g) as [->|N].
    + exists m. split; auto. apply (taken_first g [] m). intros [].
    + exists (x :: m'). split; [apply taken_cons; auto|]. cbn. congruence.
Qed.

Lemma other_step : forall s t op, Pl s -> plain_op op ->
  (forall g, op <> AddGrp t g /\ op <> RemoveGrp t g) ->
  let s' := fst (gstep C s op) in
  fresh s <= fresh s' /\
  (kd (node_of s' t) = 8 ->
   (kd (node_of s t) = 8 /\ groups s' t = groups s t) \/ (fresh s <= t /\ groups s' t = [])).
Proof.
  intros s t op H Hp Ho. cbn zeta.
  assert (Stay : forall s', fresh s' = fresh s -> entries s' = entries s -> ptr s' = ptr s ->
     (kd (node_of s' t) = kd (node_of s t)) -> fresh s <= fresh s' /\
     (kd (node_of s' t) = 8 -> (kd (node_of s t) = 8 /\ groups s' t = groups s t) \/ (fresh s <= t /\ groups s' t = []))).
  { intros s' Q1 Q2 Q3 Q4. split; [lia|]. rewrite Q4. intros K. left. split; auto. unfold groups. rewrite Q2, Q3. auto. }
  assert (Still : forall s', still s s' -> fresh s <= fresh s' /\
     (kd (node_of s' t) = 8 -> (kd (node_of s t) = 8 /\ groups s' t = groups s t) \/ (fresh s <= t /\ groups s' t = []))).
  { intros s' []. apply Stay; auto. congruence. }
  assert (New : forall s', fresh s' = S (fresh s) -> entries s' = entries s ->
     (forall sl, owner sl <> fresh s -> ptr s' sl = ptr s sl) -> (forall a, a <> fresh s -> node_of s' a = node_of s a) ->
     fresh s <= fresh s' /\
     (kd (node_of s' t) = 8 -> (kd (node_of s t) = 8 /\ groups s' t = groups s t) \/ (fresh s <= t /\ groups s' t = []))).
  { intros s' Q1 Q2 Q3 Q4. split; [lia|]. intros K. destruct (Nat.eq_dec t (fresh s)) as [->|N].
    - right. split; auto. unfold groups. rewrite Q2. rewrite (proj2 (p_alloc _ H (fresh s) (le_n _))). auto.
    - left. rewrite Q4 in K by auto. split; auto. unfold groups. rewrite Q2. apply map_ext. intros k. apply Q3. auto. }
  assert (Same : fresh s <= fresh s /\
     (kd (node_of s t) = 8 -> (kd (node_of s t) = 8 /\ groups s t = groups s t) \/ (fresh s <= t /\ groups s t = []))) by (split; auto).
  destruct op; cbn [gstep].
  all: try (match goal with |- context [if ?b then (_, _) else (_, Illegal)] => destruct b; [|exact Same] end).
  all: cbn [fst].
  all: try solve [apply New; first [reflexivity
    |intros sl N; rewrite ?register_ptr by (intros ->; apply N; reflexivity); reflexivity
    |intros x N; cbn; apply upd_other; auto]].
  all: try solve [apply Still; constructor; reflexivity].
  - destruct cost, delay; apply New; first [reflexivity
    |intros sl N; rewrite ?register_ptr by (intros ->; apply N; reflexivity); reflexivity
    |intros x N; cbn; apply upd_other; auto].
  - destruct (node_of s i) as [[]|] eqn:E; try exact Same. cbn [fst].
    match goal with |- context [notify i ?x] => destruct (still_notify i x) as [Q1 Q2 Q3 Q4] end.
    apply Stay; [rewrite Q1|rewrite Q4|rewrite Q3|rewrite Q2]; try reflexivity.
    cbn. unfold upd. destruct (Nat.eqb_spec t i) as [->|]; auto. rewrite E. auto.
  - destruct (node_of s i) as [[]|] eqn:E; try exact Same. cbn [fst].
    match goal with |- context [notify i ?x] => destruct (still_notify i x) as [Q1 Q2 Q3 Q4] end.
    apply Stay; [rewrite Q1|rewrite Q4|rewrite Q3|rewrite Q2]; try reflexivity.
    cbn. unfold upd. destruct (Nat.eqb_spec t i) as [->|]; auto. rewrite E. auto.
  - destruct Hp.
  - destruct (node_of s o) eqn:E; [|exact Same]. destruct (referenced s o) eqn:R; [exact Same|]. cbn [fst].
    destruct (still_fold unregister still_unregister (dtor_slots s o) s) as [Q1 Q2 Q3 Q4].
    revert Q1 Q2 Q3 Q4. generalize (fold_left unregister (dtor_slots s o) s). intros s1 Q1 Q2 Q3 Q4.
    split; [cbn; lia|]. destruct (Nat.eq_dec t o) as [->|N]; [cbn; rewrite upd_same; discriminate|].
    intros K. left. assert (Hd : node_of (release o s1) t = node_of s1 t) by (cbn; apply upd_other; auto).
    rewrite Hd, Q2 in K. split; auto. unfold groups.
    assert (Hr : entries (release o s1) t = entries s1 t) by (cbn; apply upd_other; auto).
    rewrite Hr, Q4. apply map_ext. intros k. cbn. rewrite Q3. auto.
  - destruct (is_str s t0 && is_grp s g); [|exact Same].
    pose proof (add_changes t0 g s) as A. cbn zeta in A. destruct (do_add t0 g s) as [s' ok]. cbn [fst snd] in *.
    destruct A as (A1 & A2 & _ & A3 & A4 & A5 & A6 & A7 & A8 & A9 & A10 & A11). split; auto.
    rewrite A2. intros K. left. split; auto. assert (N : t <> t0) by (intros ->; destruct (Ho g); congruence).
    unfold groups. rewrite (A7 t N). apply map_ext. intros k. destruct (A4 (SEntry t k)) as [|[Q|[Q _]]]; auto; congruence.
  - cbn [fst]. split; [cbn; auto|]. intros K. left. split; auto. unfold groups. cbn.
    rewrite upd_other; auto. intros ->. destruct (Ho g); congruence.
  - destruct (node_of s t0) as [[]|] eqn:E; try exact Same. cbn [fst]. apply Stay; try reflexivity.
    cbn. unfold upd. destruct (Nat.eqb_spec t t0) as [->|]; auto. rewrite E. auto.
  - destruct (node_of s t0) as [[]|] eqn:E; try exact Same. cbn [fst]. apply Stay; try reflexivity.
    cbn. unfold upd. destruct (Nat.eqb_spec t t0) as [->|]; auto. rewrite E. auto.
  - pose proof (cch_query C q s) as A. destruct (do_query C q s). apply Still. apply still_cch. exact A.
Qed.

Lemma gafter_snoc : forall p h op, gafter C p (h ++ [op]) = fst (gstep C (gafter C p h) op).
Proof. intros. unfold gafter. rewrite fold_left_app. reflexivity. Qed.

Lemma contents : forall p t h l, Forall plain_op h -> listed C p t h l ->
  (kd (node_of (gafter C p h) t) = 8 -> groups (gafter C p h) t = map Some l) /\
  (fresh (gafter C p h) <= t -> l = []).
Proof.
  intros p t h l Hh Hl. induction Hl as [|h l g Hl IH Hd|h l g Hl IH Hd|h l l' g Hl IH Hd Ht|h l g Hl IH Hd|h l op Hl IH Ho].
  - split; auto.
  - apply Forall_app in Hh. destruct Hh as [Hh _]. specialize (IH Hh). pose proof (pl_after p h Hh) as HP.
    rewrite gafter_snoc. cbn [gstep] in *. revert HP IH Hd. generalize (gafter C p h). intros s HP [IH1 IH2] Hd.
    destruct (is_str s t) eqn:E1; [|discriminate]. destruct (is_grp s g); [|discriminate]. cbn [andb] in *.
    assert (K : kd (node_of s t) = 8) by (destruct (is_kd s t) as (_ & _ & _ & _ & _ & _ & _ & Q); auto).
    pose proof (add_changes t g s) as A. cbn zeta in A. destruct (do_add t g s) as [s' ok]. cbn [fst snd] in *.
    destruct ok; [|discriminate].
    destruct A as (A1 & A2 & _ & A3 & A4 & A5 & A6 & A7 & A8 & A9 & A10 & A11).
    destruct (A6 eq_refl) as (A61 & A62 & A63). specialize (A10 eq_refl). split.
    + intros _. unfold groups. rewrite A62, !map_app. cbn. rewrite A61. f_equal. rewrite <- IH1 by auto.
      apply map_ext_in. intros k I. destruct (A4 (SEntry t k)) as [|[Q|[Q _]]]; auto; [discriminate|].
      inversion Q; subst. exfalso. pose proof (p_entry _ HP _ _ I) as Q2.
      destruct (ptr s (SEntry t (fresh s))) eqn:Q3; [|congruence]. apply (p_owner _ HP) in Q3. lia.
    + intros Q. exfalso. assert (N : node_of s t = None) by (apply (p_alloc _ HP); lia). rewrite N in K. discriminate.
  - apply Forall_app in Hh. destruct Hh as [Hh _]. specialize (IH Hh). pose proof (pl_after p h Hh) as HP.
    rewrite gafter_snoc. cbn [gstep] in *. revert HP IH Hd. generalize (gafter C p h). intros s HP IH Hd.
    destruct (is_str s t) eqn:E1; [|exact IH]. destruct (is_grp s g) eqn:E2; [|exact IH]. cbn [andb] in *.
    pose proof (add_changes t g s) as A. cbn zeta in A. destruct (do_add t g s) as [s' ok] eqn:Ed. cbn [fst snd] in *.
    destruct ok; [congruence|]. destruct A as (A1 & A2 & _ & A3 & A4 & A5 & _). rewrite A5; auto.
    destruct (pl_im_of_grp s g HP) as (e & i & Q1 & Q2 & Q3); [|congruence].
    destruct (is_kd s g) as (_ & _ & _ & _ & _ & _ & Q & _); auto.
  - apply Forall_app in Hh. destruct Hh as [Hh _]. specialize (IH Hh). pose proof (pl_after p h Hh) as HP.
    rewrite gafter_snoc. cbn [gstep] in *. revert HP IH Hd. generalize (gafter C p h). intros s HP [IH1 IH2] Hd.
    destruct (is_str s t) eqn:E1; [|discriminate]. destruct (is_grp s g); [|discriminate]. cbn [andb fst] in *.
    assert (K : kd (node_of s t) = 8) by (destruct (is_kd s t) as (_ & _ & _ & _ & _ & _ & _ & Q); auto).
    split.
    + intros _. unfold groups. cbn. rewrite upd_same.
      destruct (drop_first_taken (fun k => ptr s (SEntry t k)) g (entries s t) l) as (m & Q1 & Q2).
      { rewrite <- IH1 by auto. reflexivity. }
      rewrite (taken_fun _ _ _ _ Ht Q1). exact Q2.
    + cbn. intros Q. exfalso. assert (N : node_of s t = None) by (apply (p_alloc _ HP); lia). rewrite N in K. discriminate.
  - apply Forall_app in Hh. destruct Hh as [Hh _]. specialize (IH Hh). pose proof (pl_after p h Hh) as HP.
    rewrite gafter_snoc. cbn [gstep] in *. revert HP IH Hd. generalize (gafter C p h). intros s HP IH Hd.
    destruct (is_str s t && is_grp s g); [cbn in Hd; congruence|exact IH].
  - apply Forall_app in Hh. destruct Hh as [Hh Hop]. specialize (IH Hh). pose proof (pl_after p h Hh) as HP.
    inversion Hop as [|? ? Hop1 _]; subst.
    rewrite gafter_snoc. revert HP IH. generalize (gafter C p h). intros s HP [IH1 IH2].
    destruct (other_step s t op HP Hop1 Ho) as [O1 O2]. split.
    + intros K. destruct (O2 K) as [[Q1 Q2]|[Q1 Q2]]; rewrite Q2; auto. rewrite IH2; auto.
    + intros Q. apply IH2. lia.
Qed.

Lemma listed_some : forall p t h, exists l, listed C p t h l.
Proof.
  intros p t h. induction h as [|op h (l & IH)] using rev_ind; [exists []; constructor|].
  assert (Oth : (forall g, op <> AddGrp t g /\ op <> RemoveGrp t g) -> exists l, listed C p t (h ++ [op]) l).
  { intros Q. exists l. apply listed_other; auto. }
  assert (Dec : forall r : @result V, r = Done \/ r <> Done) by (intros []; auto; right; discriminate).
  destruct op; try (apply Oth; split; congruence).
  - destruct (Nat.eq_dec t0 t) as [->|N]; [|apply Oth; split; congruence].
    destruct (Dec (snd (gstep C (gafter C p h) (AddGrp t g)))); eexists; [eapply listed_add|eapply listed_rejected]; eauto.
  - destruct (Nat.eq_dec t0 t) as [->|N]; [|apply Oth; split; congruence].
    destruct (Dec (snd (gstep C (gafter C p h) (RemoveGrp t g)))); [|eexists; eapply listed_invalid; eauto].
    destruct (taken_some g l) as (l' & Hl'). exists l'. eapply listed_remove; eauto.
Qed.

End Proofs.
