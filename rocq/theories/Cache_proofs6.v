(** * Cached functions: one thread, and calculations outside the cache *)
From Coq Require Import List Bool Arith Lia.
From Verif Require Import Cache Cache_proofs Cache_proofs2 Cache_proofs3 Cache_proofs4 Cache_proofs5.
Import ListNotations.

Section P.
  Context {V K T W : Type}.
  Variable kdec : forall x y : K, {x = y} + {x <> y}.
  Variable key : V -> K.
  Variable isnan : V -> bool.
  Variable func : W -> V -> option T.
  Variable dflt : T.
  Variable active : bool.
  Variable n : nat.

  Notation state := (@state V K T W).
  Notation step := (step kdec key isnan func dflt active n).
  Notation exec := (exec kdec key isnan func dflt active n).
  Notation run := (run kdec key isnan func dflt active n).
  Notation Inv := (@Inv V K T W kdec key n).

  Lemma overlap_call : forall s s' i v l, call_step kdec key isnan func dflt active i s v l = Some s' ->
    g_overlap s' = g_overlap s.
  Proof.
    intros s s' i v l H.
    assert (Hun : forall s0 : state, g_overlap (unlock i s0) = g_overlap s0).
    { intros s0. unfold unlock. destruct (s_lock s0) as [j|]; [destruct (Nat.eq_dec j i)|]; reflexivity. }
    assert (Hwr : forall k f (s0 : state), (forall a rc, g_overlap (f a rc) = g_overlap s0) ->
                  g_overlap (with_rec k f s0) = g_overlap s0).
    { intros k f s0 Hf. unfold with_rec. destruct (s_inproc s0 k); [|reflexivity].
      destruct (s_heap s0 n0); [apply Hf|reflexivity]. }
    assert (Hur : forall k (s0 : state), g_overlap (unlock_rec i k s0) = g_overlap s0).
    { intros k s0. unfold unlock_rec. apply Hwr. intros a rc.
      destruct (rc_owner rc) as [j|]; [destruct (Nat.eq_dec j i)|]; reflexivity. }
    assert (Her : forall k (s0 : state), g_overlap (erase_rec kdec k s0) = g_overlap s0).
    { intros k s0. unfold erase_rec. apply Hwr. reflexivity. }
    destruct l; cbn [call_step] in H;
      repeat match type of H with
             | match ?x with _ => _ end = _ => destruct x; try discriminate
             end; injection H as <-; cbn [goto return_ g_overlap set_lock put_rec set_heap set_inproc
               set_next set_cache violate start die direct];
      rewrite ?Hun, ?Hur, ?Her; auto; try (rewrite Hwr; auto; fail).
    destruct (s_cache s (key v)); auto.
  Qed.

  (** With one thread no clear can meet a call in progress. *)
  Lemma alone_overlap : n = 1 -> forall w progs s, exec (init w progs) s -> g_overlap s = false.
  Proof.
    intros Hn w progs s H. remember (init w progs) as s0 eqn:E0.
    induction H as [s1|s1 s2 s3 i Hx IH Hi Hs]; [subst; reflexivity|].
    specialize (IH E0). unfold Cache.step in Hs. destruct (th_at (s_ths s2 i)) as [[v l]|] eqn:E.
    - rewrite (overlap_call _ _ _ _ _ Hs). exact IH.
    - destruct (th_prog (s_ths s2 i)) as [|o rest]; [discriminate|].
      destruct o; injection Hs as <-; cbn [g_overlap]; auto.
      rewrite IH. rewrite Hn. cbn. assert (i = 0) by lia. subst i. rewrite E. reflexivity.
  Qed.

  (** The calculation is run outside the cache only for NaN or with the cache off. *)
  Definition off (v : V) : Prop := active && negb (isnan v) = false.
  Record DInv (s : state) : Prop := mkDInv {
    d_at : forall j v, at_ s j = Some (v, Q0) \/ at_ s j = Some (v, Q1) -> off v;
    d_on : forall j v l, at_ s j = Some (v, l) -> l <> P0 -> l <> P1 -> l <> Q0 -> l <> Q1 ->
           (forall r, l <> PUnl r) -> active && negb (isnan v) = true;
    d_direct : forall v, In v (g_direct s) -> off v
  }.

  Lemma dinv_init : forall w progs, DInv (init w progs).
  Proof.
    intros. constructor; cbn; try tauto; intros; try discriminate. destruct H; discriminate.
  Qed.

  Lemma direct_call : forall s s' i v l, call_step kdec key isnan func dflt active i s v l = Some s' ->
    g_direct s' = g_direct s \/ l = Q1 /\ g_direct s' = v :: g_direct s.
  Proof.
    intros s s' i v l H.
    assert (Hun : forall s0 : state, g_direct (unlock i s0) = g_direct s0).
    { intros s0. unfold unlock. destruct (s_lock s0) as [j|]; [destruct (Nat.eq_dec j i)|]; reflexivity. }
    assert (Hwr : forall k f (s0 : state), (forall a rc, g_direct (f a rc) = g_direct s0) ->
                  g_direct (with_rec k f s0) = g_direct s0).
    { intros k f s0 Hf. unfold with_rec. destruct (s_inproc s0 k); [|reflexivity].
      destruct (s_heap s0 n0); [apply Hf|reflexivity]. }
    assert (Hur : forall k (s0 : state), g_direct (unlock_rec i k s0) = g_direct s0).
    { intros k s0. unfold unlock_rec. apply Hwr. intros a rc.
      destruct (rc_owner rc) as [j|]; [destruct (Nat.eq_dec j i)|]; reflexivity. }
    assert (Her : forall k (s0 : state), g_direct (erase_rec kdec k s0) = g_direct s0).
    { intros k s0. unfold erase_rec. apply Hwr. reflexivity. }
    destruct l; cbn [call_step] in H;
      repeat match type of H with
             | match ?x with _ => _ end = _ => destruct x; try discriminate
             end; injection H as <-; cbn [goto return_ g_direct set_lock put_rec set_heap set_inproc
               set_next set_cache violate start die direct];
      rewrite ?Hun, ?Hur, ?Her; auto; try (left; rewrite Hwr; auto; fail).
    destruct (s_cache s (key v)); auto.
  Qed.

  (** Where a call goes next. *)
  Lemma next_label : forall s s' i v l, call_step kdec key isnan func dflt active i s v l = Some s' ->
    (forall j, j <> i -> at_ s' j = at_ s j) /\
    (at_ s' i = None \/ exists l', at_ s' i = Some (v, l') /\
      ((l' = Q0 -> l = P1 /\ off v) /\ (l' = Q1 -> l = Q0) /\
       (l = P1 -> l' = Q0 \/ active && negb (isnan v) = true) /\ (l = Q0 -> l' = Q1) /\
       (l = P0 -> l' = P1) /\ l <> Q1 /\ (forall r, l <> PUnl r))).
  Proof.
    intros s s' i v l H.
    assert (Hg : forall (s0 : state) l', s_ths s0 = s_ths s ->
      (l' = Q0 -> l = P1 /\ off v) /\ (l' = Q1 -> l = Q0) /\
       (l = P1 -> l' = Q0 \/ active && negb (isnan v) = true) /\ (l = Q0 -> l' = Q1) /\
       (l = P0 -> l' = P1) /\ l <> Q1 /\ (forall r, l <> PUnl r) ->
      (forall j, j <> i -> at_ (goto i v l' s0) j = at_ s j) /\
      (at_ (goto i v l' s0) i = None \/ exists l'', at_ (goto i v l' s0) i = Some (v, l'') /\
      ((l'' = Q0 -> l = P1 /\ off v) /\ (l'' = Q1 -> l = Q0) /\
       (l = P1 -> l'' = Q0 \/ active && negb (isnan v) = true) /\ (l = Q0 -> l'' = Q1) /\
       (l = P0 -> l'' = P1) /\ l <> Q1 /\ (forall r, l <> PUnl r)))).
    { intros s0 l' Es Q. split.
      - intros j Hj. rewrite at_goto' by exact Hj. unfold at_. rewrite Es. reflexivity.
      - right. exists l'. rewrite at_goto. auto. }
    assert (Hr : forall (s0 : state) r, s_ths s0 = s_ths s ->
      (forall j, j <> i -> at_ (return_ i v r s0) j = at_ s j) /\ at_ (return_ i v r s0) i = None).
    { intros s0 r Es. split.
      - intros j Hj. rewrite at_return' by exact Hj. unfold at_. rewrite Es. reflexivity.
      - apply at_return. }
    assert (Hun : s_ths (unlock i s) = s_ths s) by apply (sm_ths _ _ (same_unlock i s)).
    assert (Hur : s_ths (unlock_rec i (key v) s) = s_ths s) by apply (sm_ths _ _ (same_unlock_rec i (key v) s)).
    assert (Her : s_ths (erase_rec kdec (key v) s) = s_ths s) by apply (sm_ths _ _ (same_erase_rec kdec (key v) s)).
    destruct l; cbn [call_step] in H;
      repeat match type of H with
             | match ?x with _ => _ end = _ => destruct x eqn:?; try discriminate
             end; injection H as <-;
      first
        [ apply Hg;
          [ first [ reflexivity | assumption
                  | apply (sm_ths s); apply same_with; intros; constructor; reflexivity
                  | destruct (s_cache s (key v)); reflexivity ]
          | repeat match goal with
                   | |- context [if ?x then _ else _] => destruct x eqn:?
                   | |- context [match ?x with Some _ => _ | None => _ end] => destruct x eqn:?
                   end; repeat split; intros; try discriminate; auto ]
        | split; [apply Hr|left; apply Hr]; first [reflexivity|assumption] ].
  Qed.

  Lemma dinv_step : forall s s' i, DInv s -> step i s = Some s' -> DInv s'.
  Proof.
    intros s s' i [D1 D2 D3] H. unfold Cache.step in H.
    destruct (th_at (s_ths s i)) as [[v l]|] eqn:E.
    - change (at_ s i = Some (v, l)) in E.
      destruct (next_label s s' i v l H) as [Ho Hi]. constructor.
      + intros j v' Q. destruct (Nat.eq_dec j i) as [->|Hj]; [|rewrite (Ho j Hj) in Q; eapply D1; exact Q].
        destruct Hi as [Q'|[l' [El [N1 [N2 _]]]]]; [rewrite Q' in Q; destruct Q; discriminate|].
        rewrite El in Q. destruct Q as [Q|Q]; injection Q as <- ->.
        * apply N1. reflexivity.
        * apply (D1 i v). left. rewrite E. rewrite (N2 eq_refl). reflexivity.
      + intros j v' l0 Q H1 H2 H3 H4 H5.
        destruct (Nat.eq_dec j i) as [->|Hj]; [|rewrite (Ho j Hj) in Q; eapply D2; eassumption].
        destruct Hi as [Q'|[l' [El [N1 [N2 [N3 [N4 [N5 [N6 N7]]]]]]]]]; [congruence|].
        rewrite El in Q. injection Q as <- ->.
        destruct l; try (apply (D2 i v _ E); congruence).
        * exfalso. apply H2. apply N5. reflexivity.
        * destruct (N3 eq_refl); [contradiction|assumption].
        * exfalso. apply H4. apply N4. reflexivity.
      + destruct (direct_call s s' i v l H) as [-> | [-> ->]]; [exact D3|].
        intros v' [<-|Q]; [|apply D3; exact Q]. eapply D1. right. exact E.
    - destruct (th_prog (s_ths s i)) as [|o rest]; [discriminate|].
      assert (Hat : forall at_', (forall j, th_at (upd Nat.eq_dec (s_ths s) i (mkTh rest at_' (th_log (s_ths s i))) j)
                   = if Nat.eq_dec j i then at_' else at_ s j)).
      { intros at_' j. unfold upd, at_. destruct (Nat.eq_dec j i); reflexivity. }
      destruct o; injection H as <-; constructor; unfold at_; cbn [s_ths g_direct]; auto;
        intros j; rewrite Hat; destruct (Nat.eq_dec j i); try (intros; eapply D1; eassumption);
        try (intros; eapply D2; eassumption); intros; try discriminate;
        try (destruct H; discriminate). congruence.
  Qed.

  Lemma dinv_exec : forall w progs s, exec (init w progs) s -> DInv s.
  Proof.
    intros w progs s H. remember (init w progs) as s0 eqn:E0.
    induction H as [s1|s1 s2 s3 i Hx IH Hi Hs]; [subst; apply dinv_init|].
    eapply dinv_step; [apply IH; exact E0|exact Hs].
  Qed.
End P.
