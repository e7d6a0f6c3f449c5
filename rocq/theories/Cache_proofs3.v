(** * The locking invariant holds in every execution *)
From Coq Require Import List Bool Arith Lia.
From Verif Require Import Cache Cache_proofs Cache_proofs2.
Import ListNotations.

Section P.
  Context {V K T W : Type}.
  Variable kdec : forall x y : K, {x = y} + {x <> y}.
  Variable key : V -> K.
  Variable isnan : V -> bool.
  Variable func : W -> V -> option T.
  Variable dflt : T.
  Variable active : bool.
  Variable n : nat.

  Notation label := (@label T).
  Notation state := (@state V K T W).
  Notation step := (step kdec key isnan func dflt active n).
  Notation call_step := (call_step kdec key isnan func dflt active).
  Notation exec := (exec kdec key isnan func dflt active n).
  Notation Inv := (@Inv V K T W kdec key n).
  Notation sel := (@sel V K T kdec key).
  Notation local := (@local V K T W key).
  Notation rec_ok := (@rec_ok V K T W kdec key n).

  (** Storing a value. *)
  Lemma inv_store : forall (s s0 : state) i v l l' r, Inv s -> i < n -> at_ s i = Some (v, l) ->
    crit l = true -> crit l' = true ->
    s0 = set_cache (upd kdec (s_cache s) (key v) (Some r)) s ->
    counted l' = counted l -> holder l' = holder l -> is_C1 l' = is_C1 l ->
    calc l' = false -> is_read l' = false ->
    g_dead s (key v) = false ->
    (forall j, j < n -> j <> i -> sel (key v) calc (at_ s j) = false) ->
    local s0 i v l' ->
    Inv (goto i v l' s0).
  Proof.
    intros s s0 i v l l' r I Hi E Hc Hc' Es0 H1 H2 H3 H4 H5 Hd Hno Hloc.
    assert (Ea : forall j, j <> i -> at_ (goto i v l' s0) j = at_ s j).
    { intros j Hj. rewrite at_goto' by exact Hj. rewrite Es0. reflexivity. }
    assert (Hsel : forall P : label -> bool, P l' = P l ->
             forall k, sel k P (at_ (goto i v l' s0) i) = sel k P (at_ s i)).
    { intros P HP k. rewrite at_goto, E. cbn [Cache_proofs.sel]. rewrite HP. reflexivity. }
    apply (inv_build kdec key n s _ i I Hi Ea).
    - rewrite Es0. apply (inv_viol _ _ _ s I).
    - split; rewrite at_goto, E; cbn [critx]; rewrite Hc'.
      + rewrite Es0. cbn [goto set_cache s_lock]. eapply inv_lock; eassumption.
      + congruence.
    - intros v' l'' E'. rewrite at_goto in E'. injection E' as <- <-.
      apply (local_same key s0); try reflexivity. exact Hloc.
    - apply (locals_frame kdec key n s _ i v l I Hi E Hc).
      + intros k Hk. rewrite Es0. cbn [goto set_cache s_cache]. apply upd_other. exact Hk.
      + right. exact Hno.
      + intros k b rc0 Hk R0. rewrite Es0. exact R0.
      + left. intros b rc0 R0. exists rc0. split; [rewrite Es0; exact R0|auto].
    - eapply rec_same; try eassumption; try (rewrite Es0; reflexivity); try (apply Hsel; assumption).
    - rewrite Es0. apply (inv_inj _ _ _ s I).
    - intros k D. assert (D0 : g_dead s k = true) by (rewrite Es0 in D; exact D).
      destruct (inv_dead _ _ _ s I k D0) as [D1 [D2 D3]].
      split.
      { rewrite Es0. cbn [goto set_cache s_cache]. rewrite upd_other; [exact D1|congruence]. }
      split; [rewrite Es0; exact D2|]. intros j Hj.
      destruct (Nat.eq_dec j i) as [->|Hji]; [|rewrite (Ea j Hji); auto].
      rewrite at_goto. cbn [Cache_proofs.sel]. destruct (kdec (key v) k) as [Q|]; [congruence|auto].
    - intros k. rewrite at_goto. cbn [Cache_proofs.sel].
      destruct (kdec (key v) k); congruence.
    - intros v' E'. rewrite at_goto in E'. injection E' as <- ->. discriminate.
  Qed.

  (** Erasing a record. *)
  Lemma inv_erase : forall (s s0 : state) i v l a rc, Inv s -> i < n -> at_ s i = Some (v, l) ->
    crit l = true -> holder l = true ->
    hasrec s (key v) a rc -> rc_owner rc = Some i -> rc_count rc = 0 ->
    s0 = set_inproc (upd kdec (s_inproc s) (key v) None)
                    (set_heap (upd Nat.eq_dec (s_heap s) a None) s) ->
    Inv (goto i v PRead s0).
  Proof.
    intros s s0 i v l a rc I Hi E Hc Hh R O Z Es0.
    assert (Ea : forall j, j <> i -> at_ (goto i v PRead s0) j = at_ s j).
    { intros j Hj. rewrite at_goto' by exact Hj. rewrite Es0. reflexivity. }
    pose proof (holder_no_calc kdec key n s i v l I Hi E Hc Hh) as Hno.
    pose proof (holder_alive kdec key n s i v l I Hi E (or_introl Hh)) as Hd.
    apply (inv_build kdec key n s _ i I Hi Ea).
    - rewrite Es0. apply (inv_viol _ _ _ s I).
    - split; rewrite at_goto, E; cbn [critx].
      + rewrite Es0. cbn [goto set_heap set_inproc s_lock crit]. eapply inv_lock; eassumption.
      + congruence.
    - intros v' l'' E'. rewrite at_goto in E'. injection E' as <- <-. split; [discriminate|exact Logic.I].
    - apply (locals_frame kdec key n s _ i v l I Hi E Hc).
      + intros k _. rewrite Es0. reflexivity.
      + left. rewrite Es0. reflexivity.
      + intros k b rc0 Hk [R1 R2]. rewrite Es0. split; cbn [goto set_inproc set_heap s_inproc s_heap].
        * rewrite upd_other; assumption.
        * rewrite upd_other; [exact R2|]. intros ->. apply Hk.
          eapply inv_inj; [eassumption|exact R1|exact (proj1 R)].
      + right. apply (alone kdec key n s i v l I Hi E Hc).
        exists a, rc. auto.
    - eapply (rec_erase kdec key n s _ i v l PRead a I Hi E); try eassumption;
        try (rewrite Es0; reflexivity).
      + apply at_goto.
      + exact (proj1 R).
    - intros k k' b. rewrite Es0. cbn [goto set_inproc set_heap s_inproc]. unfold upd.
      destruct (kdec k (key v)); [discriminate|]. destruct (kdec k' (key v)); [discriminate|].
      apply (inv_inj _ _ _ s I).
    - intros k D. assert (D0 : g_dead s k = true) by (rewrite Es0 in D; exact D).
      destruct (inv_dead _ _ _ s I k D0) as [D1 [D2 D3]].
      split; [rewrite Es0; exact D1|].
      split.
      { rewrite Es0. cbn [goto set_inproc set_heap s_inproc]. rewrite upd_other; [exact D2|congruence]. }
      intros j Hj.
      destruct (Nat.eq_dec j i) as [->|Hji]; [|rewrite (Ea j Hji); auto].
      rewrite at_goto. cbn [Cache_proofs.sel]. destruct (kdec (key v) k) as [Q|]; [congruence|auto].
    - intros k. rewrite at_goto. cbn [Cache_proofs.sel].
      destruct (kdec (key v) k); discriminate.
    - intros v' E'. rewrite at_goto in E'. injection E' as <-. exact Hno.
  Qed.

  (** Creating a record. *)
  Lemma inv_create : forall (s s0 : state) i v, Inv s -> i < n -> at_ s i = Some (v, C0) ->
    s_inproc s (key v) = None ->
    s0 = set_next (S (s_next s)) (set_inproc (upd kdec (s_inproc s) (key v) (Some (s_next s)))
                                   (put_rec (s_next s) (mkRec None 0) s)) ->
    Inv (goto i v C1 s0).
  Proof.
    intros s s0 i v I Hi E Hnone Es0.
    assert (Ea : forall j, j <> i -> at_ (goto i v C1 s0) j = at_ s j).
    { intros j Hj. rewrite at_goto' by exact Hj. rewrite Es0. reflexivity. }
    destruct (inv_local _ _ _ s I i Hi _ _ E) as [Lc _].
    assert (Hfresh : forall k b, s_inproc s k = Some b -> b <> s_next s).
    { intros k b Hb. destruct (inv_rec _ _ _ s I k b Hb) as [Q _]. lia. }
    apply (inv_build kdec key n s _ i I Hi Ea).
    - rewrite Es0. apply (inv_viol _ _ _ s I).
    - split; rewrite at_goto, E; cbn [critx].
      + rewrite Es0. cbn. eapply inv_lock; try eassumption. reflexivity.
      + cbn. congruence.
    - intros v' l'' E'. rewrite at_goto in E'. injection E' as <- <-.
      split; [rewrite Es0; intros _; apply Lc; reflexivity|].
      exists (s_next s). rewrite Es0. split; cbn; rewrite upd_same; reflexivity.
    - apply (locals_frame kdec key n s _ i v C0 I Hi E eq_refl).
      + intros k _. rewrite Es0. reflexivity.
      + left. rewrite Es0. reflexivity.
      + intros k b rc0 Hk [R1 R2]. rewrite Es0. split; cbn.
        * rewrite upd_other; assumption.
        * rewrite upd_other; [exact R2|]. eapply Hfresh; eassumption.
      + left. intros b rc0 [R _]. congruence.
    - eapply (rec_create kdec key n s _ i v C0 I Hi E); try eassumption;
        try (rewrite Es0; reflexivity).
      apply at_goto.
    - intros k k' b. rewrite Es0. cbn. unfold upd.
      destruct (kdec k (key v)) as [->|]; destruct (kdec k' (key v)) as [->|]; auto.
      + intros [= <-] Q. exfalso. eapply Hfresh; [exact Q|reflexivity].
      + intros Q [= <-]. exfalso. eapply Hfresh; [exact Q|reflexivity].
      + apply (inv_inj _ _ _ s I).
    - intros k D. assert (D0 : g_dead s k = true) by (rewrite Es0 in D; exact D).
      destruct (inv_dead _ _ _ s I k D0) as [D1 [D2 D3]].
      assert (Hk : k <> key v) by congruence.
      split; [rewrite Es0; exact D1|].
      split.
      { rewrite Es0. cbn. rewrite upd_other; [exact D2|exact Hk]. }
      intros j Hj.
      destruct (Nat.eq_dec j i) as [->|Hji]; [|rewrite (Ea j Hji); auto].
      rewrite at_goto. cbn [Cache_proofs.sel]. destruct (kdec (key v) k) as [Q|]; [congruence|auto].
    - intros k. rewrite at_goto. auto.
    - intros v' E'. rewrite at_goto in E'. discriminate.
  Qed.

  (** A waiting thread takes the lock of the record. *)
  Lemma inv_take : forall (s : state) i v a rc, Inv s -> i < n -> at_ s i = Some (v, W3 a) ->
    s_heap s a = Some rc -> rc_owner rc = None ->
    Inv (goto i v W4 (put_rec a (mkRec (Some i) (rc_count rc)) s)).
  Proof.
    intros s i v a rc I Hi E Eh O.
    set (s0 := put_rec a (mkRec (Some i) (rc_count rc)) s).
    assert (Ea : forall j, j <> i -> at_ (goto i v W4 s0) j = at_ s j).
    { intros j Hj. rewrite at_goto' by exact Hj. reflexivity. }
    destruct (inv_local _ _ _ s I i Hi _ _ E) as [_ [rc0 R]].
    assert (Q := proj2 R). rewrite Eh in Q. injection Q as <-.
    destruct (inv_rec _ _ _ s I _ _ (proj1 R)) as [Hlt [rc1 [R1 [N Ow]]]].
    rewrite Eh in R1. injection R1 as <-. rewrite O in Ow. destruct Ow as [Hd _].
    assert (Hpos : 0 < rc_count rc).
    { rewrite N. apply (cnt_pos kdec key _ _ _ i); [exact Hi|]. rewrite E, sel_some. reflexivity. }
    apply (inv_build kdec key n s _ i I Hi Ea).
    - apply (inv_viol _ _ _ s I).
    - split; rewrite at_goto, E; cbn; [reflexivity|discriminate].
    - intros v' l'' E'. rewrite at_goto in E'. injection E' as <- <-.
      split; [discriminate|]. exists a, (mkRec (Some i) (rc_count rc)). split; [|reflexivity].
      split; [exact (proj1 R)|]. cbn. apply upd_same.
    - intros j v' l' Hj Hji E'.
      destruct (inv_local _ _ _ s I j Hj _ _ E') as [L1 L2]. split; [exact L1|].
      destruct (kdec (key v') (key v)) as [Ek|Hk].
      + assert (R' : hasrec (goto i v W4 s0) (key v') a (mkRec (Some i) (rc_count rc))).
        { split; [rewrite Ek; exact (proj1 R)|]. cbn. apply upd_same. }
        assert (Hnn : forall j', ~ owned s (key v') j').
        { intros j' [a' [rc' [Ra Oa]]]. rewrite Ek in Ra.
          destruct (hasrec_fun _ _ _ _ _ _ R Ra) as [_ <-]. congruence. }
        assert (Hn2 : forall a' rc', hasrec s (key v') a' rc' -> a' = a).
        { intros a' rc' Ra. rewrite Ek in Ra. destruct (hasrec_fun _ _ _ _ _ _ R Ra). auto. }
        destruct l'; try exact L2; try exact Logic.I;
          try (eexists; eexists; exact R');
          try (destruct L2 as [rc' Ra]; rewrite (Hn2 _ _ Ra); eexists; exact R');
          try (exfalso; apply (Hnn j); exact L2);
          try (exfalso; apply (Hnn j); destruct L2 as [a' [rc' [Ra [Oa _]]]]; exists a', rc'; auto);
          try (exfalso; apply (Hnn j); destruct L2 as [a' Ra]; eexists a', _; split; [exact Ra|reflexivity]).
        exfalso. destruct L2 as [a' Ra]. rewrite Ek in Ra.
        destruct (hasrec_fun _ _ _ _ _ _ R Ra) as [_ ->]. cbn in Hpos. lia.
      + assert (Hkeep : forall a' rc', hasrec s (key v') a' rc' ->
                  hasrec (goto i v W4 s0) (key v') a' rc').
        { intros a' rc' Ra. eapply (hasrec_keep kdec key n s (key v') (key v) a' a rc'); try eassumption;
            reflexivity. }
        destruct l'; try exact L2; try exact Logic.I;
          try (destruct L2 as [a' [rc' [Ra Oa]]]; exists a', rc'; split; [apply Hkeep; exact Ra|exact Oa]);
          try (destruct L2 as [a' [rc' Ra]]; exists a', rc'; apply Hkeep; exact Ra);
          try (destruct L2 as [rc' Ra]; exists rc'; apply Hkeep; exact Ra).
    - eapply (rec_upd kdec key n s _ i v (W3 a) W4 a rc _ I Hi E); try eassumption; try reflexivity.
      + apply at_goto.
      + cbn [rc_owner]. left. split; [exact Hi|]. rewrite at_goto, sel_some. reflexivity.
    - apply (inv_inj _ _ _ s I).
    - intros k D. destruct (inv_dead _ _ _ s I k D) as [D1 [D2 D3]].
      split; [exact D1|]. split; [exact D2|]. intros j Hj.
      destruct (Nat.eq_dec j i) as [->|Hji]; [|rewrite (Ea j Hji); auto].
      rewrite at_goto. cbn [Cache_proofs.sel].
      destruct (kdec (key v) k) as [Q|]; [|auto]. subst k. cbn in D. congruence.
    - intros k. rewrite at_goto. cbn. destruct (kdec (key v) k); discriminate.
    - intros v' E'. rewrite at_goto in E'. discriminate.
  Qed.

  (** A calculation throws. *)
  Lemma inv_throw : forall (s : state) i v, Inv s -> i < n -> at_ s i = Some (v, C4b) ->
    Inv (return_ i v None (die kdec (key v) s)).
  Proof.
    intros s i v I Hi E.
    set (s' := return_ i v None (die kdec (key v) s)).
    assert (Ea : forall j, j <> i -> at_ s' j = at_ s j).
    { intros j Hj. unfold s'. rewrite at_return' by exact Hj. reflexivity. }
    assert (Ei : at_ s' i = None) by (unfold s'; apply at_return).
    destruct (inv_local _ _ _ s I i Hi _ _ E) as [Lc [a [rc [R O]]]].
    assert (Hdead : forall k, k <> key v -> g_dead s' k = g_dead s k).
    { intros k Hk. unfold s'. cbn. apply upd_other. exact Hk. }
    assert (Hs : forall k P j, k <> key v -> sel k P (at_ s' j) = sel k P (at_ s j)).
    { intros k P j Hk. destruct (Nat.eq_dec j i) as [->|Hj]; [|rewrite Ea; auto].
      rewrite Ei, E. rewrite sel_other; auto. }
    apply (inv_build kdec key n s _ i I Hi Ea).
    - apply (inv_viol _ _ _ s I).
    - split; rewrite Ei, E; cbn; [reflexivity|discriminate].
    - intros v' l'' E'. rewrite Ei in E'. discriminate.
    - intros j v' l' Hj Hji E'. apply (local_same key s); try reflexivity.
      eapply inv_local; eassumption.
    - intros k b Hb. change (s_inproc s k = Some b) in Hb.
      destruct (inv_rec _ _ _ s I k b Hb) as [Hlt [rc0 [R0 [N Ow]]]].
      split; [exact Hlt|]. exists rc0. split; [exact R0|].
      split.
      { rewrite N. pose proof (cnt_change kdec key k counted (at_ s) (at_ s') i n Hi Ea) as C.
        rewrite E, Ei in C. cbn [Cache_proofs.sel counted] in C.
        destruct (kdec (key v) k); lia. }
      destruct (kdec k (key v)) as [->|Hk].
      + destruct R as [Ra Rb]. rewrite Ra in Hb. injection Hb as <-. rewrite Rb in R0. injection R0 as <-.
        rewrite O. right. unfold s'. cbn. apply upd_same.
      + rewrite (Hdead k Hk). destruct (rc_owner rc0) as [j|].
        * rewrite Hs by exact Hk. exact Ow.
        * destruct Ow as [D Ow]. split; [exact D|]. destruct Ow as [Ow|[j [Hj Ow]]]; [auto|].
          right. exists j. rewrite Hs by exact Hk. auto.
    - apply (inv_inj _ _ _ s I).
    - intros k D. destruct (kdec k (key v)) as [->|Hk].
      + split; [apply Lc; reflexivity|]. split; [rewrite (proj1 R : s_inproc s' (key v) = _); discriminate|].
        intros j Hj. destruct (Nat.eq_dec j i) as [->|Hji]; [rewrite Ei; auto|].
        rewrite (Ea j Hji). split; [|split].
        * destruct (sel (key v) holder (at_ s j)) eqn:Q; [|reflexivity]. exfalso.
          destruct (sel_inv _ _ _ _ _ Q) as [v' [l' [E' [Ek Hh]]]]. apply Hji.
          eapply (holder_unique kdec key n s j i v' v l' C4b); try eassumption. reflexivity.
        * destruct (sel (key v) is_C1 (at_ s j)) eqn:Q; [|reflexivity]. exfalso.
          destruct (sel_inv _ _ _ _ _ Q) as [v' [l' [E' [Ek Hh]]]]. destruct l'; try discriminate.
          destruct (inv_local _ _ _ s I j Hj _ _ E') as [_ [a' R']]. rewrite Ek in R'.
          destruct (hasrec_fun _ _ _ _ _ _ R R') as [_ ->]. discriminate.
        * destruct (sel (key v) is_read (at_ s j)) eqn:Q; [|reflexivity]. exfalso.
          destruct (sel_inv _ _ _ _ _ Q) as [v' [l' [E' [Ek Hh]]]]. destruct l'; try discriminate.
          pose proof (inv_read _ _ _ s I j Hj v' E' i Hi) as Q'. rewrite E, Ek, sel_some in Q'. discriminate.
      + rewrite (Hdead k Hk) in D. destruct (inv_dead _ _ _ s I k D) as [D1 [D2 D3]].
        split; [exact D1|]. split; [exact D2|]. intros j Hj. rewrite !Hs by exact Hk. auto.
    - intros k. rewrite Ei. discriminate.
    - intros v' E'. rewrite Ei in E'. discriminate.
  Qed.

  (** Operations outside calls: nothing but the contents may change, by becoming empty. *)
  Lemma inv_outside : forall (s s' : state) i x, Inv s -> i < n -> at_ s i = None ->
    (forall j, j <> i -> at_ s' j = at_ s j) -> at_ s' i = x ->
    (x = None \/ exists v, x = Some (v, P0)) ->
    s_lock s' = s_lock s -> s_inproc s' = s_inproc s -> s_heap s' = s_heap s ->
    s_next s' = s_next s -> g_dead s' = g_dead s -> g_viol s' = g_viol s ->
    (forall k, s_cache s' k = s_cache s k \/ s_cache s' k = None) ->
    Inv s'.
  Proof.
    intros s s' i x I Hi E Ea Ei Hx EL E1 E2 E3 E4 E5 Hc.
    assert (Hsel : forall k (P : label -> bool), P P0 = false -> sel k P (at_ s' i) = false).
    { intros k P HP. rewrite Ei. destruct Hx as [->|[v ->]]; [reflexivity|]. cbn.
      destruct (kdec (key v) k); auto. }
    assert (Hcrit : critx (at_ s' i) = false).
    { rewrite Ei. destruct Hx as [->|[v ->]]; reflexivity. }
    assert (Hcn : forall k, s_cache s k = None -> s_cache s' k = None).
    { intros k Hk. destruct (Hc k) as [Q|Q]; congruence. }
    apply (inv_build kdec key n s _ i I Hi Ea).
    - rewrite E5. apply (inv_viol _ _ _ s I).
    - split; rewrite Hcrit, E; cbn; [exact EL|discriminate].
    - intros v l E'. rewrite Ei in E'. destruct Hx as [->|[v0 ->]]; [discriminate|].
      injection E' as <- <-. split; [discriminate|exact Logic.I].
    - intros j v l Hj Hji E'. destruct (inv_local _ _ _ s I j Hj _ _ E') as [L1 L2].
      split; [auto|]. unfold owned, hasrec in *. rewrite E1, E2. exact L2.
    - eapply rec_same; try eassumption; intros k; rewrite Hsel by reflexivity; rewrite E; reflexivity.
    - rewrite E1. apply (inv_inj _ _ _ s I).
    - intros k D. rewrite E4 in D. destruct (inv_dead _ _ _ s I k D) as [D1 [D2 D3]].
      split; [auto|]. split; [rewrite E1; exact D2|]. intros j Hj.
      destruct (Nat.eq_dec j i) as [->|Hji]; [|rewrite (Ea j Hji); auto].
      rewrite !Hsel by reflexivity. auto.
    - intros k. rewrite Hsel by reflexivity. discriminate.
    - intros v E'. rewrite Ei in E'. destruct Hx as [->|[v0 ->]]; discriminate.
  Qed.

  Lemma unlock_eq : forall (s : state) i, s_lock s = Some i -> unlock i s = set_lock None s.
  Proof. intros s i H. unfold unlock. rewrite H. destruct (Nat.eq_dec i i); congruence. Qed.

  Lemma rec_count_eq : forall (s : state) k a rc, hasrec s k a rc -> rec_count k s = rc_count rc.
  Proof. intros s k a rc [H1 H2]. unfold rec_count. rewrite H1, H2. reflexivity. Qed.

  Lemma unlock_rec_eq : forall (s : state) i k a rc, hasrec s k a rc -> rc_owner rc = Some i ->
    unlock_rec i k s = put_rec a (mkRec None (rc_count rc)) s.
  Proof.
    intros s i k a rc R O. unfold unlock_rec. rewrite (with_rec_eq s k a rc _ R).
    rewrite O. destruct (Nat.eq_dec i i); congruence.
  Qed.

  Lemma erase_rec_eq : forall (s : state) k a rc, hasrec s k a rc ->
    erase_rec kdec k s = set_inproc (upd kdec (s_inproc s) k None)
                           (set_heap (upd Nat.eq_dec (s_heap s) a None) s).
  Proof. intros s k a rc R. unfold erase_rec. rewrite (with_rec_eq s k a rc _ R). reflexivity. Qed.

  Theorem inv_step : forall (s s' : state) i, Inv s -> i < n -> step i s = Some s' -> Inv s'.
  Proof.
    intros s s' i I Hi H. unfold Cache.step in H.
    destruct (th_at (s_ths s i)) as [[v l]|] eqn:E.
    2:{ change (at_ s i = None) in E. destruct (th_prog (s_ths s i)) as [|[v| |w] rest]; [discriminate| | |];
        injection H as <-;
        (eapply (inv_outside s _ i _ I Hi E);
          [intros j Hj; unfold at_; cbn [s_ths]; rewrite upd_other by exact Hj; reflexivity
          |unfold at_; cbn [s_ths]; rewrite upd_same; reflexivity
          |cbn [th_at]; eauto
          |reflexivity|reflexivity|reflexivity|reflexivity|reflexivity|reflexivity
          |intros k; cbn [s_cache]; auto]). }
    change (at_ s i = Some (v, l)) in E.
    pose proof (inv_local _ _ _ s I i Hi _ _ E) as L. destruct L as [Lc L].
    assert (HL : crit l = true -> s_lock s = Some i).
    { intros Hc. eapply inv_lock; eassumption. }
    destruct l; cbn [call_step] in H.
    - (* P0 *) destruct (s_lock s) eqn:Ql; [discriminate|]. injection H as <-.
      eapply (inv_goto kdec key n s); try eassumption; try reflexivity; try discriminate; auto.
      split; [discriminate|exact Logic.I].
    - (* P1 *) injection H as <-.
      eapply (inv_goto kdec key n s); try eassumption; try reflexivity;
        destruct (active && negb (isnan v)); try reflexivity; try discriminate; auto; try (cbn; auto; fail).
      + split; [discriminate|exact Logic.I].
      + split; [discriminate|exact Logic.I].
    - (* P2 *) injection H as <-. destruct (s_cache s (key v)) as [t|] eqn:Qc.
      + eapply (inv_goto kdec key n s); try eassumption; try reflexivity; try discriminate; auto.
        * split; [discriminate|exact Logic.I].
        * intros _. split.
          { destruct (g_dead s (key v)) eqn:D; [|reflexivity].
            destruct (inv_dead _ _ _ s I _ D) as [D1 _]. congruence. }
          intros j Hj Hji. destruct (sel (key v) calc (at_ s j)) eqn:Q; [|reflexivity]. exfalso.
          destruct (sel_inv _ _ _ _ _ Q) as [v' [l' [E' [Ek Hh]]]].
          destruct (inv_local _ _ _ s I j Hj _ _ E') as [L1 _]. rewrite Ek in L1.
          rewrite (L1 Hh) in Qc. discriminate.
      + eapply (inv_goto kdec key n s); try eassumption; try reflexivity; try discriminate; auto.
        split; [auto|exact Logic.I].
    - (* P3 *) injection H as <-. destruct (s_inproc s (key v)) as [a|] eqn:Qi.
      + eapply (inv_goto kdec key n s); try eassumption; try reflexivity; try discriminate; auto.
        split; [discriminate|]. destruct (inv_rec _ _ _ s I _ _ Qi) as [_ [rc [R _]]].
        exists a, rc. split; assumption.
      + eapply (inv_goto kdec key n s); try eassumption; try reflexivity; try discriminate; auto.
        split; [auto|exact Qi].
    - (* W0 *) injection H as <-. destruct L as [a [rc R]]. rewrite (with_rec_eq s _ a rc _ R).
      destruct (inv_rec _ _ _ s I _ _ (proj1 R)) as [_ [rc0 [R0 [N Ow]]]].
      rewrite (proj2 R) in R0. injection R0 as <-.
      eapply (inv_upd kdec key n s _ i v W0 W1 a rc); try eassumption; try reflexivity; try discriminate; auto.
      + cbn [rc_count counted]. lia.
      + cbn [rc_owner rc_count]. destruct (rc_owner rc) as [j|].
        * destruct Ow as [[Hj Ow]|Ow]; [|auto]. right; left. split; [|auto].
          intros ->. rewrite E, sel_some in Ow. discriminate.
        * split; [apply Ow|lia].
      + split; [discriminate|]. eexists a, _. eapply hasrec_upd; [exact R|reflexivity|reflexivity].
    - (* W1 *) destruct L as [a [rc R]]. rewrite (proj1 R) in H. injection H as <-.
      eapply (inv_goto kdec key n s); try eassumption; try reflexivity; try discriminate; auto.
      split; [discriminate|]. exists rc. exact R.
    - (* W2 *) injection H as <-. rewrite unlock_eq by auto.
      eapply (inv_goto kdec key n s); try eassumption; try reflexivity; try discriminate; auto.
      split; [discriminate|exact L].
    - (* W3 *) destruct L as [rc R]. rewrite (proj2 R) in H.
      destruct (rc_owner rc) eqn:O; [discriminate|]. injection H as <-.
      apply inv_take; auto. exact (proj2 R).
    - (* W4 *) destruct (s_lock s) eqn:Ql; [discriminate|]. injection H as <-.
      eapply (inv_goto kdec key n s); try eassumption; try reflexivity; try discriminate; auto.
      split; [discriminate|exact L].
    - (* W5 *) injection H as <-. destruct L as [a [rc [R O]]]. rewrite (with_rec_eq s _ a rc _ R).
      destruct (inv_rec _ _ _ s I _ _ (proj1 R)) as [_ [rc0 [R0 [N Ow]]]].
      rewrite (proj2 R) in R0. injection R0 as <-.
      assert (Hpos : 0 < rc_count rc).
      { rewrite N. apply (cnt_pos kdec key _ _ _ i); [exact Hi|]. rewrite E, sel_some. reflexivity. }
      pose proof (holder_alive kdec key n s i v W5 I Hi E (or_introl eq_refl)) as Hd.
      eapply (inv_upd kdec key n s _ i v W5 W6 a rc); try eassumption; try reflexivity; try discriminate; auto.
      + cbn [rc_count counted]. lia.
      + cbn [rc_owner rc_count]. rewrite O. auto.
      + congruence.
      + split; [discriminate|]. eexists a, _. split; [eapply hasrec_upd; [exact R|reflexivity|reflexivity]|exact O].
    - (* W6 *) injection H as <-. destruct L as [a [rc [R O]]]. rewrite (with_rec_eq s _ a rc _ R).
      rewrite (rec_count_eq s _ a rc R). destruct (0 <? rc_count rc) eqn:Q.
      + apply Nat.ltb_lt in Q.
        eapply (inv_goto kdec key n s); try eassumption; try reflexivity; try discriminate; auto.
        split; [discriminate|]. exists a, rc. auto.
      + apply Nat.ltb_ge in Q.
        eapply (inv_goto kdec key n s); try eassumption; try reflexivity; try discriminate; auto.
        split; [discriminate|]. exists a, rc. split; [exact R|split; [exact O|lia]].
    - (* W7 *) injection H as <-. destruct L as [a [rc [R [O Hpos]]]].
      rewrite (unlock_rec_eq s i _ a rc R O).
      pose proof (holder_alive kdec key n s i v W7 I Hi E (or_introl eq_refl)) as Hd.
      eapply (inv_upd kdec key n s _ i v W7 PRead a rc); try eassumption; try reflexivity; try discriminate; auto.
      + intros j Hj Q. congruence.
      + cbn [rc_owner rc_count]. auto.
      + congruence.
      + split; [discriminate|exact Logic.I].
      + intros _. exact (holder_no_calc kdec key n s i v W7 I Hi E eq_refl eq_refl).
    - (* W8 *) injection H as <-. destruct L as [a [rc [R [O Z]]]].
      rewrite (erase_rec_eq s _ a rc R).
      eapply (inv_erase s _ i v W8 a rc); try eassumption; reflexivity.
    - (* C0 *) cbn in L. rewrite L in H. injection H as <-.
      eapply inv_create; try eassumption. reflexivity.
    - (* C1 *) destruct L as [a R]. rewrite (proj1 R), (proj2 R) in H. cbn [rc_owner rc_count] in H.
      injection H as <-.
      pose proof (holder_alive kdec key n s i v C1 I Hi E (or_intror eq_refl)) as Hd.
      eapply (inv_upd kdec key n s _ i v C1 C2 a (mkRec None 0)); try eassumption; try reflexivity; try discriminate; auto.
      + cbn [rc_owner rc_count]. auto.
      + congruence.
      + split; [intros _; apply Lc; reflexivity|]. exists a. eapply hasrec_upd; [exact R|reflexivity|reflexivity].
    - (* C2 *) injection H as <-. destruct L as [a R]. rewrite (with_rec_eq s _ a _ _ R).
      pose proof (holder_alive kdec key n s i v C2 I Hi E (or_introl eq_refl)) as Hd.
      eapply (inv_upd kdec key n s _ i v C2 C3 a); try eassumption; try reflexivity; try discriminate; auto.
      + cbn [rc_owner rc_count]. auto.
      + congruence.
      + split; [intros _; apply Lc; reflexivity|]. eexists a, _.
        split; [eapply hasrec_upd; [exact R|reflexivity|reflexivity]|reflexivity].
    - (* C3 *) injection H as <-. rewrite unlock_eq by auto.
      eapply (inv_goto kdec key n s); try eassumption; try reflexivity; try discriminate; auto.
      split; [auto|exact L].
    - (* C4 *) injection H as <-.
      eapply (inv_goto kdec key n s); try eassumption; try reflexivity; try discriminate; auto.
      split; [auto|exact L].
    - (* C4b *) destruct (func (s_world s) v) as [r|]; injection H as <-.
      + eapply (inv_goto kdec key n s); try eassumption; try reflexivity; try discriminate; auto.
        split; [auto|exact L].
      + apply inv_throw; assumption.
    - (* C5 *) destruct (s_lock s) eqn:Ql; [discriminate|]. injection H as <-.
      eapply (inv_goto kdec key n s); try eassumption; try reflexivity; try discriminate; auto.
      split; [auto|exact L].
    - (* C6 *) rewrite (Lc eq_refl) in H. injection H as <-.
      eapply (inv_goto kdec key n s); try eassumption; try reflexivity; try discriminate; auto.
      split; [auto|exact L].
    - (* C7 *) injection H as <-.
      eapply (inv_store s _ i v (C7 r) C8 r); try eassumption; try reflexivity.
      + eapply holder_alive; try eassumption. left. reflexivity.
      + eapply (holder_no_calc kdec key n); try eassumption; reflexivity.
      + split; [discriminate|exact L].
    - (* C8 *) injection H as <-. destruct L as [a [rc [R O]]]. rewrite (with_rec_eq s _ a rc _ R).
      rewrite (rec_count_eq s _ a rc R). destruct (rc_count rc =? 0) eqn:Q.
      + apply Nat.eqb_eq in Q.
        eapply (inv_goto kdec key n s); try eassumption; try reflexivity; try discriminate; auto.
        split; [discriminate|]. exists a, rc. auto.
      + apply Nat.eqb_neq in Q.
        eapply (inv_goto kdec key n s); try eassumption; try reflexivity; try discriminate; auto.
        split; [discriminate|]. exists a, rc. split; [exact R|split; [exact O|lia]].
    - (* C9 *) injection H as <-. destruct L as [a [rc [R [O Z]]]].
      rewrite (erase_rec_eq s _ a rc R).
      eapply (inv_erase s _ i v C9 a rc); try eassumption; reflexivity.
    - (* C10 *) injection H as <-. destruct L as [a [rc [R [O Hpos]]]].
      rewrite (unlock_rec_eq s i _ a rc R O).
      pose proof (holder_alive kdec key n s i v C10 I Hi E (or_introl eq_refl)) as Hd.
      eapply (inv_upd kdec key n s _ i v C10 PRead a rc); try eassumption; try reflexivity; try discriminate; auto.
      + intros j Hj Q. congruence.
      + cbn [rc_owner rc_count]. auto.
      + congruence.
      + split; [discriminate|exact Logic.I].
      + intros _. exact (holder_no_calc kdec key n s i v C10 I Hi E eq_refl eq_refl).
    - (* PRead *) destruct (s_cache s (key v)) as [t|] eqn:Qc; injection H as <-.
      + eapply (inv_goto kdec key n s); try eassumption; try reflexivity; try discriminate; auto.
        split; [discriminate|exact Logic.I].
      + eapply (inv_store s _ i v PRead (PUnl dflt) dflt); try eassumption; try reflexivity.
        * destruct (g_dead s (key v)) eqn:D; [|reflexivity].
          destruct (inv_dead _ _ _ s I _ D) as [_ [_ D3]]. destruct (D3 i Hi) as [_ [_ D4]].
          rewrite E, sel_some in D4. discriminate.
        * intros j Hj _. exact (inv_read _ _ _ s I i Hi v E j Hj).
        * split; [discriminate|exact Logic.I].
    - (* PUnl *) injection H as <-. rewrite unlock_eq by auto.
      eapply (inv_return kdec key n s); try eassumption; reflexivity.
    - (* Q0 *) injection H as <-. rewrite unlock_eq by auto.
      eapply (inv_goto kdec key n s); try eassumption; try reflexivity; try discriminate; auto.
      split; [discriminate|exact Logic.I].
    - (* Q1 *) injection H as <-.
      eapply (inv_return kdec key n s); try eassumption; reflexivity.
  Qed.

  Theorem inv_exec : forall s s', Inv s -> exec s s' -> Inv s'.
  Proof. intros s s' I H. induction H as [|s1 s2 s3 i _ IH Hi Hs]; [assumption|].
    exact (inv_step s2 s3 i (IH I) Hi Hs). Qed.
End P.
