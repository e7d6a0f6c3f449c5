(** * The locking invariant is kept by every step *)
From Coq Require Import List Bool Arith Lia.
From Verif Require Import Cache Cache_proofs.
Import ListNotations.

Section P.
  Context {V K T W : Type}.
  Variable kdec : forall x y : K, {x = y} + {x <> y}.
  Variable key : V -> K.
  Variable isnan : V -> bool.
  Variable func : W -> V -> option T.
  Variable dflt : T.
  Variable active : bool.
  Variable n : nat.

  Notation label := (@label T).
  Notation state := (@state V K T W).
  Notation step := (step kdec key isnan func dflt active n).
  Notation call_step := (call_step kdec key isnan func dflt active).
  Notation Inv := (@Inv V K T W kdec key n).
  Notation sel := (@sel V K T kdec key).
  Notation local := (@local V K T W key).
  Notation rec_ok := (@rec_ok V K T W kdec key n).

  Lemma inv_move : forall s s' i, Inv s -> i < n ->
    (forall j, j <> i -> at_ s' j = at_ s j) ->
    s_cache s' = s_cache s -> s_inproc s' = s_inproc s -> s_heap s' = s_heap s ->
    s_next s' = s_next s -> g_dead s' = g_dead s -> g_viol s' = g_viol s ->
    lock_moves s s' i ->
    (forall v l, at_ s' i = Some (v, l) -> local s i v l) ->
    (forall k, sel k counted (at_ s' i) = sel k counted (at_ s i)) ->
    (forall k, sel k holder (at_ s' i) = sel k holder (at_ s i)) ->
    (forall k, sel k is_C1 (at_ s' i) = sel k is_C1 (at_ s i)) ->
    (forall k, sel k calc (at_ s' i) = true -> sel k calc (at_ s i) = true \/ critx (at_ s' i) = true) ->
    (forall v, at_ s' i = Some (v, PRead) -> g_dead s (key v) = false /\
       forall j, j < n -> j <> i -> sel (key v) calc (at_ s j) = false) ->
    Inv s'.
  Proof.
    intros s s' i I Hi Ho Ec Ei Eh En Ed Ev HL Hl H1 H2 H3 H4 H5.
    apply (inv_build kdec key n s s' i I Hi Ho); try assumption.
    - rewrite Ev. apply (inv_viol _ _ _ s I).
    - intros v l E. apply (local_same key s); auto.
    - intros j v l Hj Hji E. apply (local_same key s); auto. eapply inv_local; eassumption.
    - eapply rec_same; eassumption.
    - rewrite Ei. apply (inv_inj _ _ _ s I).
    - intros k D. rewrite Ed in D. rewrite Ec, Ei. destruct (inv_dead _ _ _ s I k D) as [D1 [D2 D3]].
      split; [exact D1|]. split; [exact D2|]. intros j Hj.
      destruct (Nat.eq_dec j i) as [->|Hji]; [|rewrite (Ho j Hji); auto].
      rewrite H2, H3. destruct (D3 i Hi) as [D4 [D5 _]]. split; [exact D4|]. split; [exact D5|].
      destruct (sel k is_read (at_ s' i)) eqn:Q; [|reflexivity].
      destruct (sel_inv _ _ _ _ _ Q) as [v [l [E [Ek Hr]]]]. destruct l; try discriminate.
      destruct (H5 v E) as [H6 _]. congruence.
    - intros v E. apply (H5 v E).
  Qed.

  Lemma at_goto : forall i v l (s : state), at_ (goto i v l s) i = Some (v, l).
  Proof. intros. unfold at_, goto. cbn [s_ths]. rewrite upd_same. reflexivity. Qed.
  Lemma at_goto' : forall i v l (s : state) j, j <> i -> at_ (goto i v l s) j = at_ s j.
  Proof. intros. unfold at_, goto. cbn [s_ths]. rewrite upd_other by assumption. reflexivity. Qed.
  Lemma at_return : forall i v r (s : state), at_ (return_ i v r s) i = None.
  Proof. intros. unfold at_, return_. cbn [s_ths]. rewrite upd_same. reflexivity. Qed.
  Lemma at_return' : forall i v r (s : state) j, j <> i -> at_ (return_ i v r s) j = at_ s j.
  Proof. intros. unfold at_, return_. cbn [s_ths]. rewrite upd_other by assumption. reflexivity. Qed.

  (** A step of thread [i] from a label [l] to a label [l'] changing only the lock. *)
  Lemma inv_goto : forall s s0 i v l l', Inv s -> i < n -> at_ s i = Some (v, l) ->
    s_ths s0 = s_ths s -> s_cache s0 = s_cache s -> s_inproc s0 = s_inproc s ->
    s_heap s0 = s_heap s -> s_next s0 = s_next s -> g_dead s0 = g_dead s -> g_viol s0 = g_viol s ->
    s_lock s0 = (if crit l' then Some i else if crit l then None else s_lock s) ->
    (crit l' = true -> crit l = false -> s_lock s = None) ->
    local s i v l' -> counted l' = counted l -> holder l' = holder l -> is_C1 l' = is_C1 l ->
    (calc l' = true -> calc l = true \/ crit l' = true) ->
    (is_read l' = true -> g_dead s (key v) = false /\
       forall j, j < n -> j <> i -> sel (key v) calc (at_ s j) = false) ->
    Inv (goto i v l' s0).
  Proof.
    intros s s0 i v l l' I Hi E Et Ec Ei Eh En Ed Ev HL HL' Hloc H1 H2 H3 H4 H5.
    assert (Ea : forall j, at_ s0 j = at_ s j) by (intros j; unfold at_; rewrite Et; reflexivity).
    assert (Hsel : forall P : label -> bool, P l' = P l ->
             forall k, sel k P (at_ (goto i v l' s0) i) = sel k P (at_ s i)).
    { intros P HP k. rewrite at_goto, E. cbn [Cache_proofs.sel]. rewrite HP. reflexivity. }
    apply (inv_move s _ i I Hi); try assumption; try (apply Hsel; assumption).
    - intros j Hj. rewrite at_goto' by exact Hj. apply Ea.
    - split; rewrite at_goto, E; cbn [critx].
      + unfold goto. cbn [s_lock]. exact HL.
      + exact HL'.
    - intros v' l'' E'. rewrite at_goto in E'. injection E' as <- <-. exact Hloc.
    - intros k. rewrite at_goto, E. cbn [Cache_proofs.sel critx].
      destruct (kdec (key v) k); [exact H4|discriminate].
    - intros v' E'. rewrite at_goto in E'. injection E' as <- ->. apply H5. reflexivity.
  Qed.

  Lemma inv_return : forall s s0 i v l r, Inv s -> i < n -> at_ s i = Some (v, l) ->
    s_ths s0 = s_ths s -> s_cache s0 = s_cache s -> s_inproc s0 = s_inproc s ->
    s_heap s0 = s_heap s -> s_next s0 = s_next s -> g_dead s0 = g_dead s -> g_viol s0 = g_viol s ->
    s_lock s0 = (if crit l then None else s_lock s) ->
    counted l = false -> holder l = false -> is_C1 l = false ->
    Inv (return_ i v r s0).
  Proof.
    intros s s0 i v l r I Hi E Et Ec Ei Eh En Ed Ev HL H1 H2 H3.
    assert (Ea : forall j, at_ s0 j = at_ s j) by (intros j; unfold at_; rewrite Et; reflexivity).
    assert (Hsel : forall P : label -> bool, P l = false ->
             forall k, sel k P (at_ (return_ i v r s0) i) = sel k P (at_ s i)).
    { intros P HP k. rewrite at_return, E. cbn [Cache_proofs.sel]. rewrite HP.
      destruct (kdec (key v) k); reflexivity. }
    apply (inv_move s _ i I Hi); try assumption; try (apply Hsel; assumption).
    - intros j Hj. rewrite at_return' by exact Hj. apply Ea.
    - split; rewrite at_return, E; cbn [critx]; [exact HL|discriminate].
    - intros v' l'' E'. rewrite at_return in E'. discriminate.
    - intros k. rewrite at_return. discriminate.
    - intros v' E'. rewrite at_return in E'. discriminate.
  Qed.

  Lemma inv_init : forall w progs, Inv (init w progs).
  Proof.
    intros w progs. constructor; try discriminate; try (intros; discriminate).
    reflexivity.
  Qed.

  (** A holder knows that nobody else is to store the value. *)
  Lemma holder_no_calc : forall s i v l, Inv s -> i < n -> at_ s i = Some (v, l) ->
    crit l = true -> holder l = true ->
    forall j, j < n -> j <> i -> sel (key v) calc (at_ s j) = false.
  Proof.
    intros s i v l I Hi E Hc Hh j Hj Hji.
    destruct (sel (key v) calc (at_ s j)) eqn:Q; [|reflexivity].
    destruct (sel_inv _ _ _ _ _ Q) as [v' [l' [E' [Ek Hcal]]]].
    assert (Hnc : crit l' = false).
    { eapply (other_not_crit kdec key n s i j); try eassumption. rewrite E. exact Hc. }
    exfalso. apply Hji. eapply (holder_unique kdec key n s j i v' v l' l); try eassumption.
    destruct l'; try discriminate; reflexivity.
  Qed.

  Lemma holder_alive : forall s i v l, Inv s -> i < n -> at_ s i = Some (v, l) ->
    holder l = true \/ is_C1 l = true -> g_dead s (key v) = false.
  Proof.
    intros s i v l I Hi E H. destruct (g_dead s (key v)) eqn:D; [|reflexivity].
    destruct (inv_dead _ _ _ s I _ D) as [_ [_ D3]]. destruct (D3 i Hi) as [D4 [D5 _]].
    rewrite E, sel_some in D4, D5. destruct H; congruence.
  Qed.

  (** Access to a record that exists. *)
  Lemma with_rec_eq : forall (s : state) k a rc f, hasrec s k a rc ->
    with_rec k f s = f a rc.
  Proof. intros s k a rc f [H1 H2]. unfold with_rec. rewrite H1, H2. reflexivity. Qed.

  Lemma hasrec_upd : forall (s : state) k a rc rc' (s' : state), hasrec s k a rc ->
    s_inproc s' = s_inproc s -> s_heap s' = upd Nat.eq_dec (s_heap s) a (Some rc') ->
    hasrec s' k a rc'.
  Proof.
    intros s k a rc rc' s' [H1 H2] E1 E2. split; [rewrite E1; exact H1|].
    rewrite E2, upd_same. reflexivity.
  Qed.

  Lemma hasrec_keep : forall (s : state) k k0 a a0 rc rc' rc0 (s' : state), Inv s ->
    hasrec s k0 a0 rc0 -> hasrec s k a rc -> k <> k0 ->
    s_inproc s' = s_inproc s -> s_heap s' = upd Nat.eq_dec (s_heap s) a0 rc' ->
    hasrec s' k a rc.
  Proof.
    intros s k k0 a a0 rc rc' rc0 s' I [H1 H2] [H3 H4] Hk E1 E2. split; [rewrite E1; exact H3|].
    rewrite E2, upd_other; [exact H4|]. intros ->. apply Hk. eapply inv_inj; eassumption.
  Qed.

  (** A step that updates the record of its key while in the critical section. *)
  Lemma inv_upd : forall s s0 i v l l' a rc rc', Inv s -> i < n -> at_ s i = Some (v, l) ->
    crit l = true -> crit l' = true ->
    hasrec s (key v) a rc ->
    s0 = set_heap (upd Nat.eq_dec (s_heap s) a (Some rc')) s ->
    rc_count rc' + (if counted l then 1 else 0) = rc_count rc + (if counted l' then 1 else 0) ->
    (forall j, j <> i -> rc_owner rc = Some j -> rc_owner rc' = Some j) ->
    match rc_owner rc' with
    | Some j => (j = i /\ holder l' = true) \/
                (j <> i /\ j < n /\ sel (key v) holder (at_ s j) = true) \/
                g_dead s (key v) = true
    | None => g_dead s (key v) = false /\ 0 < rc_count rc'
    end ->
    (g_dead s (key v) = true -> holder l' = false /\ is_C1 l' = false /\ is_read l' = false) ->
    local s0 i v l' ->
    (calc l' = true -> calc l = true \/ crit l' = true) ->
    (is_read l' = true -> forall j, j < n -> j <> i -> sel (key v) calc (at_ s j) = false) ->
    Inv (goto i v l' s0).
  Proof.
    intros s s0 i v l l' a rc rc' I Hi E Hc Hc' R Es0 Hcnt Hkeep Hown Hd Hloc H4 H5.
    assert (Ea : forall j, j <> i -> at_ (goto i v l' s0) j = at_ s j).
    { intros j Hj. rewrite at_goto' by exact Hj. rewrite Es0. reflexivity. }
    assert (Eh : s_heap (goto i v l' s0) = upd Nat.eq_dec (s_heap s) a (Some rc'))
      by (rewrite Es0; reflexivity).
    assert (Ei : s_inproc (goto i v l' s0) = s_inproc s) by (rewrite Es0; reflexivity).
    apply (inv_build kdec key n s _ i I Hi Ea).
    - rewrite Es0. apply (inv_viol _ _ _ s I).
    - split; rewrite at_goto, E; cbn [critx]; rewrite Hc'.
      + rewrite Es0. cbn [goto set_heap s_lock]. eapply inv_lock; eassumption.
      + congruence.
    - intros v' l'' E'. rewrite at_goto in E'. injection E' as <- <-.
      apply (local_same key s0); try reflexivity. exact Hloc.
    - apply (locals_frame kdec key n s _ i v l I Hi E Hc).
      + intros k _. rewrite Es0. reflexivity.
      + left. rewrite Es0. reflexivity.
      + intros k b rc0 Hk R0. eapply (hasrec_keep s k (key v) b a); eassumption.
      + left. intros b rc0 R0. destruct (hasrec_fun s _ _ _ _ _ R R0) as [<- <-].
        exists rc'. split; [eapply hasrec_upd; eassumption|exact Hkeep].
    - eapply (rec_upd kdec key n s _ i v l l' a rc rc' I Hi E); try eassumption;
        try (rewrite Es0; reflexivity); try (apply at_goto).
      destruct (rc_owner rc') as [j|].
      + destruct Hown as [[-> O]|[[Hj [Hjn O]]|O]]; [left| left|right; exact O].
        * split; [exact Hi|]. rewrite at_goto, sel_some. exact O.
        * split; [exact Hjn|]. rewrite Ea by exact Hj. exact O.
      + destruct Hown as [D O]. split; [exact D|]. left. exact O.
    - rewrite Ei. apply (inv_inj _ _ _ s I).
    - intros k D. assert (D0 : g_dead s k = true) by (rewrite Es0 in D; exact D).
      destruct (inv_dead _ _ _ s I k D0) as [D1 [D2 D3]].
      split; [rewrite Es0; exact D1|]. split; [rewrite Ei; exact D2|]. intros j Hj.
      destruct (Nat.eq_dec j i) as [->|Hji]; [|rewrite (Ea j Hji); auto].
      rewrite at_goto. cbn [Cache_proofs.sel]. destruct (kdec (key v) k) as [<-|]; auto.
    - intros k. rewrite at_goto, E. cbn [Cache_proofs.sel critx].
      destruct (kdec (key v) k); [exact H4|discriminate].
    - intros v' E'. rewrite at_goto in E'. injection E' as <- ->. apply H5. reflexivity.
  Qed.
End P.
