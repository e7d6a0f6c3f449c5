(** * Values: what is cached and returned was calculated since the last clear *)
From Coq Require Import List Bool Arith Lia.
From Verif Require Import Cache Cache_proofs Cache_proofs2 Cache_proofs3.
Import ListNotations.

Section P.
  Context {V K T W : Type}.
  Variable kdec : forall x y : K, {x = y} + {x <> y}.
  Variable key : V -> K.
  Variable isnan : V -> bool.
  Variable func : W -> V -> option T.
  Variable dflt : T.
  Variable active : bool.
  Variable n : nat.

  Notation label := (@label T).
  Notation state := (@state V K T W).
  Notation step := (step kdec key isnan func dflt active n).
  Notation exec := (exec kdec key isnan func dflt active n).
  Notation Inv := (@Inv V K T W kdec key n).
  Notation sel := (@sel V K T kdec key).
  Notation entry := (@entry V T W).

  Definition result (l : label) : option T :=
    match l with C5 r | C6 r | C7 r | PUnl r => Some r | _ => None end.
  Definition filled (l : label) : bool :=
    match l with PRead | C8 | C9 | C10 | W4 | W5 | W6 | W7 | W8 => true | _ => false end.
  Definition inflight (l : label) : bool :=
    match l with C4b | C5 _ | C6 _ | C7 _ => true | _ => false end.
  Definition pre (l : label) : bool :=
    match l with C1 | C2 | C3 | C4 => true | _ => false end.

  Definition good (ws : list W) (k : K) (t : T) : Prop :=
    exists w v', In w ws /\ key v' = k /\ func w v' = Some t.
  Definition entry_good (e : entry) : Prop :=
    match en_answer e with
    | Some t => good (en_worlds e) (key (en_arg e)) t
    | None => exists w, In w (en_worlds e) /\ func w (en_arg e) = None
    end.

  Definition ownerless (s : state) (k : K) : Prop :=
    exists a rc, hasrec s k a rc /\ rc_owner rc = None.
  Definition starts (s : state) (k : K) : nat := count_occ kdec (g_starts s) k.

  Record VInv (s : state) : Prop := mkVInv {
    v_world : In (s_world s) (g_worlds s);
    v_cache : forall k t, s_cache s k = Some t -> good (g_worlds s) k t;
    v_result : forall j v l r, j < n -> at_ s j = Some (v, l) -> result l = Some r ->
               good (g_worlds s) (key v) r;
    v_filled : forall j v l, j < n -> at_ s j = Some (v, l) -> filled l = true ->
               s_cache s (key v) <> None;
    v_rec : forall k, ownerless s k ->
            s_cache s k <> None \/ exists j, j < n /\ sel k is_C1 (at_ s j) = true;
    v_once : forall k, starts s k <= 1;
    v_started : forall k, 0 < starts s k ->
                s_cache s k <> None \/ (exists j, j < n /\ sel k inflight (at_ s j) = true) \/
                g_dead s k = true;
    v_pre : forall j v l, j < n -> at_ s j = Some (v, l) -> pre l = true -> starts s (key v) = 0;
    v_log : forall j e, j < n -> In e (th_log (s_ths s j)) -> entry_good e
  }.

  Lemma good_incl : forall ws ws' k t, incl ws ws' -> good ws k t -> good ws' k t.
  Proof. intros ws ws' k t H [w [v' [H1 H2]]]. exists w, v'. auto. Qed.

  Lemma vinv_build : forall s s' i, Inv s -> VInv s -> i < n ->
    (forall j, j <> i -> at_ s' j = at_ s j) ->
    In (s_world s') (g_worlds s') -> incl (g_worlds s) (g_worlds s') ->
    (forall k, s_cache s k <> None -> s_cache s' k <> None) ->
    (forall k t, s_cache s' k = Some t -> s_cache s k = Some t \/ good (g_worlds s') k t) ->
    (forall v l r, at_ s' i = Some (v, l) -> result l = Some r -> good (g_worlds s') (key v) r) ->
    (forall v l, at_ s' i = Some (v, l) -> filled l = true -> s_cache s' (key v) <> None) ->
    (forall k, ownerless s' k ->
       (ownerless s k /\ (sel k is_C1 (at_ s i) = true -> sel k is_C1 (at_ s' i) = true)) \/
       s_cache s' k <> None \/ sel k is_C1 (at_ s' i) = true) ->
    (g_starts s' = g_starts s \/
     exists v, at_ s i = Some (v, C4) /\ at_ s' i = Some (v, C4b) /\ g_starts s' = key v :: g_starts s) ->
    (forall k, g_dead s k = true -> g_dead s' k = true) ->
    (forall k, sel k inflight (at_ s i) = true ->
       sel k inflight (at_ s' i) = true \/ s_cache s' k <> None \/ g_dead s' k = true) ->
    (forall v l, at_ s' i = Some (v, l) -> pre l = true -> starts s (key v) = 0) ->
    (forall j, j <> i -> th_log (s_ths s' j) = th_log (s_ths s j)) ->
    (th_log (s_ths s' i) = th_log (s_ths s i) \/
     exists e, th_log (s_ths s' i) = th_log (s_ths s i) ++ [e] /\ entry_good e) ->
    VInv s'.
  Proof.
    intros s s' i I VI Hi Ho Hw Hincl Hc1 Hc2 Hr Hf Hrec Hst Hd Hin Hpre Hl1 Hl2.
    constructor.
    - exact Hw.
    - intros k t E. destruct (Hc2 k t E) as [Q|Q]; [|exact Q].
      eapply good_incl; [exact Hincl|]. eapply v_cache; eassumption.
    - intros j v l r Hj E Er. destruct (Nat.eq_dec j i) as [->|Hji]; [eauto|].
      rewrite (Ho j Hji) in E. eapply good_incl; [exact Hincl|]. eapply v_result; eassumption.
    - intros j v l Hj E Ef. destruct (Nat.eq_dec j i) as [->|Hji]; [eauto|].
      rewrite (Ho j Hji) in E. apply Hc1. eapply v_filled; eassumption.
    - intros k Hk. destruct (Hrec k Hk) as [[Q1 Q2]|[Q|Q]].
      + destruct (v_rec s VI k Q1) as [Q|[j [Hj Q]]]; [left; auto|].
        right. exists j. split; [exact Hj|]. destruct (Nat.eq_dec j i) as [->|Hji]; [auto|].
        rewrite (Ho j Hji). exact Q.
      + left. exact Q.
      + right. exists i. auto.
    - intros k. unfold starts. destruct Hst as [->|[v [E [E' ->]]]]; [apply (v_once s VI)|].
      cbn [count_occ]. destruct (kdec (key v) k) as [<-|]; [|apply (v_once s VI)].
      pose proof (v_pre s VI i v C4 Hi E eq_refl) as Q. unfold starts in Q. lia.
    - intros k Hk. assert (Hor : 0 < starts s k \/ sel k inflight (at_ s' i) = true).
      { unfold starts in *. destruct Hst as [Es|[v [E [E' Es]]]]; rewrite Es in Hk; [left; exact Hk|].
        cbn [count_occ] in Hk. destruct (kdec (key v) k) as [<-|]; [|left; exact Hk].
        right. rewrite E', sel_some. reflexivity. }
      destruct Hor as [Hs|Hs]; [|right; left; exists i; auto].
      destruct (v_started s VI k Hs) as [Q|[[j [Hj Q]]|Q]]; auto.
      destruct (Nat.eq_dec j i) as [->|Hji].
      + destruct (Hin k Q) as [Q1|[Q1|Q1]]; auto. right; left. exists i. auto.
      + right; left. exists j. rewrite (Ho j Hji). auto.
    - intros j v l Hj E Hp.
      assert (Hs : starts s (key v) = 0).
      { destruct (Nat.eq_dec j i) as [->|Hji]; [eauto|]. rewrite (Ho j Hji) in E.
        eapply v_pre; eassumption. }
      unfold starts in *. destruct Hst as [->|[v0 [E0 [E0' ->]]]]; [exact Hs|].
      cbn [count_occ]. destruct (kdec (key v0) (key v)) as [Ek|]; [|exact Hs]. exfalso.
      destruct (Nat.eq_dec j i) as [->|Hji].
      { rewrite E0' in E. injection E as <- <-. discriminate. }
      rewrite (Ho j Hji) in E.
      destruct (holder l) eqn:Hh.
      + apply Hji. eapply (holder_unique kdec key n s j i v v0 l C4); try eassumption; auto.
      + destruct l; try discriminate. destruct (inv_local _ _ _ s I j Hj _ _ E) as [_ [a R]].
        destruct (inv_local _ _ _ s I i Hi _ _ E0) as [_ [a0 [rc0 [R0 O0]]]].
        rewrite Ek in R0. destruct (hasrec_fun _ _ _ _ _ _ R R0) as [_ <-]. discriminate.
    - intros j e Hj He. destruct (Nat.eq_dec j i) as [->|Hji].
      + destruct Hl2 as [El|[e' [El Ge]]]; rewrite El in He; [eapply v_log; eassumption|].
        apply in_app_or in He. destruct He as [He|[<-|[]]]; [eapply v_log; eassumption|exact Ge].
      + rewrite (Hl1 j Hji) in He. eapply v_log; eassumption.
  Qed.

  (** Steps inside a call that leave the contents alone. *)
  Lemma vinv_goto : forall (s s0 : state) i v l l', Inv s -> VInv s -> i < n -> at_ s i = Some (v, l) ->
    s_ths s0 = s_ths s -> s_cache s0 = s_cache s -> s_world s0 = s_world s ->
    g_worlds s0 = g_worlds s -> g_starts s0 = g_starts s -> g_dead s0 = g_dead s ->
    (forall r, result l' = Some r -> good (g_worlds s) (key v) r) ->
    (filled l' = true -> s_cache s (key v) <> None) ->
    (forall k, ownerless s0 k ->
       (ownerless s k /\ (key v = k -> is_C1 l = true -> is_C1 l' = true)) \/
       s_cache s k <> None \/ (key v = k /\ is_C1 l' = true)) ->
    (inflight l = true -> inflight l' = true) ->
    (pre l' = true -> starts s (key v) = 0) ->
    VInv (goto i v l' s0).
  Proof.
    intros s s0 i v l l' I VI Hi E Et Ec Ew Eg Es Ed Hr Hf Hrec Hin Hpre.
    assert (Eto : forall j, j <> i -> s_ths (goto i v l' s0) j = s_ths s j).
    { intros j Hj. cbn [goto s_ths]. rewrite upd_other by exact Hj. rewrite Et. reflexivity. }
    apply (vinv_build s _ i I VI Hi).
    - intros j Hj. unfold at_. rewrite Eto by exact Hj. reflexivity.
    - cbn [goto s_world g_worlds]. rewrite Ew, Eg. apply (v_world s VI).
    - cbn [goto g_worlds]. rewrite Eg. apply incl_refl.
    - cbn [goto s_cache]. rewrite Ec. auto.
    - cbn [goto s_cache]. rewrite Ec. auto.
    - intros v' l'' r E' Er. rewrite at_goto in E'. injection E' as <- <-.
      cbn [goto g_worlds]. rewrite Eg. auto.
    - intros v' l'' E' Er. rewrite at_goto in E'. injection E' as <- <-.
      cbn [goto s_cache]. rewrite Ec. auto.
    - intros k Hk. rewrite at_goto, E. cbn [goto s_cache Cache_proofs.sel]. rewrite Ec.
      destruct (Hrec k Hk) as [[Q1 Q2]|[Q|[Q1 Q2]]]; auto.
      + left. split; [exact Q1|]. destruct (kdec (key v) k); [auto|discriminate].
      + right; right. destruct (kdec (key v) k); [auto|congruence].
    - left. exact Es.
    - cbn [goto g_dead]. rewrite Ed. auto.
    - intros k. rewrite at_goto, E. cbn [Cache_proofs.sel].
      destruct (kdec (key v) k); [auto|discriminate].
    - intros v' l'' E' Er. rewrite at_goto in E'. injection E' as <- <-. auto.
    - intros j Hj. rewrite Eto by exact Hj. reflexivity.
    - left. cbn [goto s_ths]. rewrite upd_same. cbn [th_log]. rewrite Et. reflexivity.
  Qed.

  (** A call returns. *)
  Lemma vinv_return : forall (s s0 : state) i v l r, Inv s -> VInv s -> i < n -> at_ s i = Some (v, l) ->
    s_ths s0 = s_ths s -> s_cache s0 = s_cache s -> s_world s0 = s_world s ->
    s_inproc s0 = s_inproc s -> s_heap s0 = s_heap s ->
    g_worlds s0 = g_worlds s -> g_starts s0 = g_starts s -> 
    (forall k, g_dead s k = true -> g_dead s0 k = true) ->
    is_C1 l = false ->
    (inflight l = true -> g_dead s0 (key v) = true) ->
    entry_good (mkEntry v r (g_worlds s)) ->
    VInv (return_ i v r s0).
  Proof.
    intros s s0 i v l r I VI Hi E Et Ec Ew Ei Eh Eg Es Ed Hc1 Hin He.
    assert (Eto : forall j, j <> i -> s_ths (return_ i v r s0) j = s_ths s j).
    { intros j Hj. cbn [return_ s_ths]. rewrite upd_other by exact Hj. rewrite Et. reflexivity. }
    apply (vinv_build s _ i I VI Hi).
    - intros j Hj. unfold at_. rewrite Eto by exact Hj. reflexivity.
    - cbn [return_ s_world g_worlds]. rewrite Ew, Eg. apply (v_world s VI).
    - cbn [return_ g_worlds]. rewrite Eg. apply incl_refl.
    - cbn [return_ s_cache]. rewrite Ec. auto.
    - cbn [return_ s_cache]. rewrite Ec. auto.
    - intros v' l'' r' E'. rewrite at_return in E'. discriminate.
    - intros v' l'' E'. rewrite at_return in E'. discriminate.
    - intros k [a [rc [[R1 R2] O]]]. left. split.
      + exists a, rc. cbn in R1, R2. rewrite Ei in R1. rewrite Eh in R2. split; [split|]; assumption.
      + rewrite E. cbn [Cache_proofs.sel]. rewrite Hc1. destruct (kdec (key v) k); discriminate.
    - left. exact Es.
    - exact Ed.
    - intros k. rewrite E. cbn [Cache_proofs.sel].
      destruct (kdec (key v) k) as [<-|]; [|discriminate]. intros Q. right; right. apply Hin. exact Q.
    - intros v' l'' E'. rewrite at_return in E'. discriminate.
    - intros j Hj. rewrite Eto by exact Hj. reflexivity.
    - right. eexists. split.
      + cbn [return_ s_ths]. rewrite upd_same. cbn [th_log]. rewrite Et, Eg. reflexivity.
      + exact He.
  Qed.

  Lemma busy_false : forall (s : state) m, busy s m = false -> forall j, j < m -> at_ s j = None.
  Proof.
    intros s m. induction m as [|m IH]; intros H j Hj; [lia|]. cbn [busy] in H.
    apply orb_false_iff in H. destruct H as [H1 H2].
    destruct (Nat.eq_dec j m) as [->|Hn]; [|apply IH; auto; lia].
    unfold at_. destruct (th_at (s_ths s m)); [discriminate|reflexivity].
  Qed.

  Lemma ownerless_same : forall (s s0 : state) k, s_inproc s0 = s_inproc s -> s_heap s0 = s_heap s ->
    ownerless s0 k -> ownerless s k.
  Proof. intros s s0 k E1 E2 H. unfold ownerless, hasrec in *. rewrite E1, E2 in H. exact H. Qed.

  Lemma ownerless_put : forall (s : state) k0 a rc k, Inv s -> s_inproc s k0 = Some a ->
    ownerless (put_rec a rc s) k -> k <> k0 -> ownerless s k.
  Proof.
    intros s k0 a rc k I Ha [b [rc0 [[R1 R2] O]]] Hk. exists b, rc0. cbn in R1, R2.
    rewrite upd_other in R2; [split; [split|]; assumption|].
    intros ->. apply Hk. eapply inv_inj; eassumption.
  Qed.

  Lemma ownerless_put_same : forall (s : state) k0 a rc, s_inproc s k0 = Some a ->
    ownerless (put_rec a rc s) k0 -> rc_owner rc = None.
  Proof.
    intros s k0 a rc Ha [b [rc0 [[R1 R2] O]]]. cbn in R1, R2. rewrite Ha in R1. injection R1 as <-.
    rewrite upd_same in R2. congruence.
  Qed.

  (** The record of [k0] changes owner only as told. *)
  Lemma ownerless_put_cases : forall (s : state) k0 a rc rc' k, Inv s -> hasrec s k0 a rc ->
    ownerless (put_rec a rc' s) k ->
    (k <> k0 /\ ownerless s k) \/ (k = k0 /\ rc_owner rc' = None).
  Proof.
    intros s k0 a rc rc' k I R H. destruct (kdec k k0) as [->|Hk].
    - right. split; [reflexivity|]. eapply ownerless_put_same; [exact (proj1 R)|exact H].
    - left. split; [exact Hk|]. eapply ownerless_put; [exact I|exact (proj1 R)|exact H|exact Hk].
  Qed.

  Lemma vinv_init : forall w progs, VInv (init w progs).
  Proof.
    intros w progs. constructor; cbn; try (intros; discriminate).
    - left. reflexivity.
    - intros k [a [rc [[R _] _]]]. discriminate.
    - unfold starts. cbn. lia.
    - unfold starts. cbn. lia.
    - intros j e _ [].
  Qed.

  Lemma overlap_mono : forall (s s' : state) i, Inv s -> i < n -> step i s = Some s' ->
    g_overlap s' = false -> g_overlap s = false.
  Proof.
    intros s s' i I Hi H. unfold Cache.step in H.
    destruct (th_at (s_ths s i)) as [[v l]|] eqn:E.
    - change (at_ s i = Some (v, l)) in E.
      assert (Hun : forall s0 : state, g_overlap (unlock i s0) = g_overlap s0).
      { intros s0. unfold unlock. destruct (s_lock s0) as [j|]; [destruct (Nat.eq_dec j i)|]; reflexivity. }
      assert (Hwr : forall k f (s0 : state), (forall a rc, g_overlap (f a rc) = g_overlap s0) ->
                    g_overlap (with_rec k f s0) = g_overlap s0).
      { intros k f s0 Hf. unfold with_rec. destruct (s_inproc s0 k); [|reflexivity].
        destruct (s_heap s0 n0); [apply Hf|reflexivity]. }
      assert (Hur : forall k (s0 : state), g_overlap (unlock_rec i k s0) = g_overlap s0).
      { intros k s0. unfold unlock_rec. apply Hwr. intros a rc.
        destruct (rc_owner rc) as [j|]; [destruct (Nat.eq_dec j i)|]; reflexivity. }
      assert (Her : forall k (s0 : state), g_overlap (erase_rec kdec k s0) = g_overlap s0).
      { intros k s0. unfold erase_rec. apply Hwr. reflexivity. }
      destruct l; cbn [call_step] in H;
        repeat match type of H with
               | match ?x with _ => _ end = _ => destruct x; try discriminate
               end; injection H as <-; cbn [goto return_ g_overlap set_lock put_rec set_heap set_inproc
                 set_next set_cache violate start die];
        rewrite ?Hun, ?Hur, ?Her; auto; try (rewrite Hwr; auto; fail).
      destruct (s_cache s (key v)); auto.
    - destruct (th_prog (s_ths s i)) as [|[v| |w] rest]; [discriminate| | |]; injection H as <-; cbn; auto.
      destruct (g_overlap s); auto.
  Qed.

  Theorem vinv_step : forall (s s' : state) i, Inv s -> VInv s -> i < n -> step i s = Some s' ->
    g_overlap s' = false -> VInv s'.
  Proof.
    intros s s' i I VI Hi H Hov. unfold Cache.step in H.
    destruct (th_at (s_ths s i)) as [[v l]|] eqn:E.
    2:{ change (at_ s i = None) in E.
      destruct (th_prog (s_ths s i)) as [|[v| |w] rest]; [discriminate| | |];
        injection H as <-.
      - (* Call *) apply (vinv_build s _ i I VI Hi); unfold at_; cbn [s_ths s_world g_worlds s_cache g_starts g_dead];
          try (rewrite upd_same); auto; cbn [th_at th_log].
        + intros j Hj. rewrite upd_other by exact Hj. reflexivity.
        + apply (v_world s VI).
        + apply incl_refl.
        + intros v' l r Q Q'. injection Q as <- <-. discriminate.
        + intros v' l Q Q'. injection Q as <- <-. discriminate.
        + intros k Hk. left. split; [exact Hk|]. unfold at_ in E. rewrite E. discriminate.
        + intros k. unfold at_ in E. rewrite E. discriminate.
        + intros v' l Q Q'. injection Q as <- <-. discriminate.
        + intros j Hj. rewrite upd_other by exact Hj. reflexivity.
      - (* Clear *) cbn [g_overlap] in Hov. apply orb_false_iff in Hov. destruct Hov as [_ Hb].
        pose proof (busy_false s n Hb) as Hidle.
        assert (Hall : forall j, j < n ->
          th_at (upd Nat.eq_dec (s_ths s) i (mkTh rest None (th_log (s_ths s i))) j) = None).
        { intros j Hj. destruct (Nat.eq_dec j i) as [->|Hji]; [rewrite upd_same; reflexivity|].
          rewrite upd_other by exact Hji. apply Hidle. exact Hj. }
        constructor; unfold at_; cbn [s_ths s_world g_worlds s_cache g_starts g_dead].
        + left. reflexivity.
        + intros k t Q. discriminate.
        + intros j v l r Hj Q. rewrite Hall in Q by exact Hj. discriminate.
        + intros j v l Hj Q. rewrite Hall in Q by exact Hj. discriminate.
        + intros k [a [rc [[R1 R2] O]]]. exfalso. cbn in R1, R2.
          destruct (inv_rec _ _ _ s I k a R1) as [_ [rc0 [R0 [N Ow]]]].
          rewrite R2 in R0. injection R0 as <-. rewrite O in Ow. destruct Ow as [_ [Q|[j [Hj Q]]]].
          * rewrite N in Q. destruct (cnt_ex _ _ _ _ _ _ Q) as [j [Hj Q']]. rewrite (Hidle j Hj) in Q'.
            discriminate.
          * rewrite (Hidle j Hj) in Q. discriminate.
        + unfold starts. cbn. lia.
        + unfold starts. cbn. lia.
        + reflexivity.
        + intros j e Hj He. apply (v_log s VI j e Hj).
          destruct (Nat.eq_dec j i) as [->|Hji]; [rewrite upd_same in He; exact He|].
          rewrite upd_other in He by exact Hji. exact He.
      - (* SetWorld *) apply (vinv_build s _ i I VI Hi); unfold at_; cbn [s_ths s_world g_worlds s_cache g_starts g_dead];
          try (rewrite upd_same); auto; cbn [th_at th_log].
        + intros j Hj. rewrite upd_other by exact Hj. reflexivity.
        + left. reflexivity.
        + apply incl_tl. apply incl_refl.
        + discriminate.
        + discriminate.
        + intros k Hk. left. split; [exact Hk|]. unfold at_ in E. rewrite E. discriminate.
        + intros k. unfold at_ in E. rewrite E. discriminate.
        + discriminate.
        + intros j Hj. rewrite upd_other by exact Hj. reflexivity. }
    change (at_ s i = Some (v, l)) in E.
    pose proof (inv_local _ _ _ s I i Hi _ _ E) as L. destruct L as [Lc L].
    assert (HL : crit l = true -> s_lock s = Some i).
    { intros Hc. eapply inv_lock; eassumption. }
    assert (Hf : filled l = true -> s_cache s (key v) <> None).
    { intros Q. eapply v_filled; eassumption. }
    assert (Hr : forall r, result l = Some r -> good (g_worlds s) (key v) r).
    { intros r Q. eapply v_result; eassumption. }
    assert (Hp : pre l = true -> starts s (key v) = 0).
    { intros Q. eapply v_pre; eassumption. }
    destruct l; cbn [call_step] in H.
    - (* P0 *) destruct (s_lock s) eqn:Ql; [discriminate|]. injection H as <-.
      eapply (vinv_goto s); try eassumption; try reflexivity; try discriminate; auto.
    - (* P1 *) injection H as <-.
      destruct (active && negb (isnan v));
      eapply (vinv_goto s); try eassumption; try reflexivity; try discriminate; auto.
    - (* P2 *) injection H as <-. destruct (s_cache s (key v)) as [t|] eqn:Qc;
      eapply (vinv_goto s); try eassumption; try reflexivity; try discriminate; auto.
      intros _. congruence.
    - (* P3 *) injection H as <-. destruct (s_inproc s (key v)) as [a|] eqn:Qi;
      eapply (vinv_goto s); try eassumption; try reflexivity; try discriminate; auto.
    - (* W0 *) injection H as <-. destruct L as [a [rc R]]. rewrite (with_rec_eq s _ a rc _ R).
      eapply (vinv_goto s); try eassumption; try reflexivity; try discriminate; auto.
      intros k Hk. left. split; [|discriminate].
      destruct (ownerless_put_cases s _ a rc _ k I R Hk) as [[_ Q]|[-> Q]]; [exact Q|].
      exists a, rc. split; [exact R|exact Q].
    - (* W1 *) destruct L as [a [rc R]]. rewrite (proj1 R) in H. injection H as <-.
      eapply (vinv_goto s); try eassumption; try reflexivity; try discriminate; auto.
    - (* W2 *) injection H as <-. rewrite unlock_eq by auto.
      eapply (vinv_goto s); try eassumption; try reflexivity; try discriminate; auto.
    - (* W3 *) destruct L as [rc R]. rewrite (proj2 R) in H.
      destruct (rc_owner rc) eqn:O; [discriminate|]. injection H as <-.
      eapply (vinv_goto s); try eassumption; try reflexivity; try discriminate; auto.
      + intros _. destruct (v_rec s VI (key v)) as [Q|[j [Hj Q]]]; [exists a, rc; auto|exact Q|]. exfalso.
        destruct (sel_inv _ _ _ _ _ Q) as [v' [l' [E' [Ek Hh]]]]. destruct l'; try discriminate.
        destruct (inv_local _ _ _ s I j Hj _ _ E') as [_ [a' R']]. rewrite Ek in R'.
        destruct (hasrec_fun _ _ _ _ _ _ R R') as [_ ->].
        destruct (inv_rec _ _ _ s I _ _ (proj1 R)) as [_ [rc0 [R0 [N _]]]].
        rewrite (proj2 R) in R0. injection R0 as <-. cbn in N.
        pose proof (cnt_pos kdec key (key v) counted (at_ s) i n Hi) as C. rewrite E, sel_some in C.
        specialize (C eq_refl). lia.
      + intros k Hk. left. split; [|discriminate].
        destruct (ownerless_put_cases s _ a rc _ k I R Hk) as [[_ Q]|[-> Q]]; [exact Q|discriminate].
    - (* W4 *) destruct (s_lock s) eqn:Ql; [discriminate|]. injection H as <-.
      eapply (vinv_goto s); try eassumption; try reflexivity; try discriminate; auto.
    - (* W5 *) injection H as <-. destruct L as [a [rc [R O]]]. rewrite (with_rec_eq s _ a rc _ R).
      eapply (vinv_goto s); try eassumption; try reflexivity; try discriminate; auto.
      intros k Hk. left. split; [|discriminate].
      destruct (ownerless_put_cases s _ a rc _ k I R Hk) as [[_ Q]|[-> Q]]; [exact Q|].
      cbn in Q. congruence.
    - (* W6 *) injection H as <-. destruct L as [a [rc [R O]]]. rewrite (with_rec_eq s _ a rc _ R).
      destruct (0 <? rec_count (key v) s);
      eapply (vinv_goto s); try eassumption; try reflexivity; try discriminate; auto.
    - (* W7 *) injection H as <-. destruct L as [a [rc [R [O Hpos]]]].
      rewrite (unlock_rec_eq s i _ a rc R O).
      eapply (vinv_goto s); try eassumption; try reflexivity; try discriminate; auto.
      intros k Hk.
      destruct (ownerless_put_cases s _ a rc _ k I R Hk) as [[_ Q]|[-> Q]]; [|auto].
      left. split; [exact Q|discriminate].
    - (* W8 *) injection H as <-. destruct L as [a [rc [R [O Z]]]].
      rewrite (erase_rec_eq kdec s _ a rc R).
      eapply (vinv_goto s); try eassumption; try reflexivity; try discriminate; auto.
      intros k [b [rc0 [[R1 R2] O']]]. left. split; [|discriminate]. cbn in R1, R2. unfold upd in R1, R2.
      destruct (kdec k (key v)); [discriminate|]. destruct (Nat.eq_dec b a); [discriminate|].
      exists b, rc0. split; [split|]; assumption.
    - (* C0 *) cbn in L. rewrite L in H. injection H as <-.
      eapply (vinv_goto s); try eassumption; try reflexivity; try discriminate; auto.
      + intros k [b [rc0 [[R1 R2] O']]]. destruct (kdec (key v) k) as [Ek|Hk]; [auto|].
        left. split; [|congruence]. cbn in R1, R2. rewrite upd_other in R1 by auto.
        exists b, rc0. split; [split|]; auto. rewrite upd_other in R2; [exact R2|].
        intros ->. destruct (inv_rec _ _ _ s I _ _ R1) as [Q _]. lia.
      + intros _. destruct (starts s (key v)) eqn:Q; [reflexivity|]. exfalso.
        destruct (v_started s VI (key v)) as [Q1|[[j [Hj Q1]]|Q1]]; [lia| | |].
        * apply Q1. apply Lc. reflexivity.
        * destruct (sel_inv _ _ _ _ _ Q1) as [v' [l' [E' [Ek Hh]]]].
          destruct (local_involved key s j v' l' (inv_local _ _ _ s I j Hj _ _ E')) as [a [rc [R _]]];
            [destruct l'; try discriminate; reflexivity|congruence].
        * destruct (inv_dead _ _ _ s I _ Q1) as [_ [Q2 _]]. congruence.
    - (* C1 *) destruct L as [a R]. rewrite (proj1 R), (proj2 R) in H. cbn [rc_owner rc_count] in H.
      injection H as <-.
      eapply (vinv_goto s); try eassumption; try reflexivity; try discriminate; auto.
      intros k Hk.
      destruct (ownerless_put_cases s _ a _ _ k I R Hk) as [[Q1 Q]|[-> Q]]; [|discriminate].
      left. split; [exact Q|congruence].
    - (* C2 *) injection H as <-. destruct L as [a R]. rewrite (with_rec_eq s _ a _ _ R).
      eapply (vinv_goto s); try eassumption; try reflexivity; try discriminate; auto.
      intros k Hk.
      destruct (ownerless_put_cases s _ a _ _ k I R Hk) as [[Q1 Q]|[-> Q]]; [|discriminate].
      left. split; [exact Q|congruence].
    - (* C3 *) injection H as <-. rewrite unlock_eq by auto.
      eapply (vinv_goto s); try eassumption; try reflexivity; try discriminate; auto.
    - (* C4 *) injection H as <-.
      apply (vinv_build s _ i I VI Hi); cbn [goto start s_world g_worlds s_cache g_starts g_dead]; auto.
      + intros j Hj. rewrite at_goto' by exact Hj. reflexivity.
      + apply (v_world s VI).
      + apply incl_refl.
      + intros v' l' r Q. rewrite at_goto in Q. injection Q as <- <-. discriminate.
      + intros v' l' Q. rewrite at_goto in Q. injection Q as <- <-. discriminate.
      + intros k Hk. left. split; [exact Hk|]. rewrite E. cbn. destruct (kdec (key v) k); discriminate.
      + right. exists v. rewrite at_goto. auto.
      + intros k. rewrite E. cbn. destruct (kdec (key v) k); discriminate.
      + intros v' l' Q. rewrite at_goto in Q. injection Q as <- <-. discriminate.
      + intros j Hj. cbn [goto start set_cache s_ths]. rewrite upd_other by exact Hj. reflexivity.
      + left. cbn [goto start set_cache s_ths]. rewrite upd_same. reflexivity.
    - (* C4b *) destruct (func (s_world s) v) as [r|] eqn:Qf; injection H as <-.
      + eapply (vinv_goto s); try eassumption; try reflexivity; try discriminate; auto.
        intros r' Q. cbn in Q. injection Q as <-. exists (s_world s), v.
        split; [apply (v_world s VI)|auto].
      + eapply (vinv_return s); try eassumption; try reflexivity.
        * intros k Hk. cbn. unfold upd. destruct (kdec k (key v)); auto.
        * intros _. cbn. apply upd_same.
        * cbn. exists (s_world s). split; [apply (v_world s VI)|exact Qf].
    - (* C5 *) destruct (s_lock s) eqn:Ql; [discriminate|]. injection H as <-.
      eapply (vinv_goto s); try eassumption; try reflexivity; try discriminate; auto.
    - (* C6 *) rewrite (Lc eq_refl) in H. injection H as <-.
      eapply (vinv_goto s); try eassumption; try reflexivity; try discriminate; auto.
    - (* C7 *) injection H as <-.
      assert (Hset : upd kdec (s_cache s) (key v) (Some r) (key v) <> None)
        by (rewrite upd_same; discriminate).
      apply (vinv_build s _ i I VI Hi); cbn [goto set_cache s_world g_worlds s_cache g_starts g_dead]; auto.
      + intros j Hj. rewrite at_goto' by exact Hj. reflexivity.
      + apply (v_world s VI).
      + apply incl_refl.
      + intros k Q. unfold upd. destruct (kdec k (key v)); [discriminate|exact Q].
      + intros k t Q. unfold upd in Q. destruct (kdec k (key v)) as [->|]; [|auto].
        injection Q as <-. right. auto.
      + intros v' l' r' Q. rewrite at_goto in Q. injection Q as <- <-. discriminate.
      + intros v' l' Q. rewrite at_goto in Q. injection Q as <- <-. auto.
      + intros k Hk. left. split; [exact Hk|]. rewrite E. cbn. destruct (kdec (key v) k); discriminate.
      + intros k. rewrite E. cbn. destruct (kdec (key v) k) as [<-|]; [auto|discriminate].
      + intros v' l' Q. rewrite at_goto in Q. injection Q as <- <-. discriminate.
      + intros j Hj. cbn [goto start set_cache s_ths]. rewrite upd_other by exact Hj. reflexivity.
      + left. cbn [goto start set_cache s_ths]. rewrite upd_same. reflexivity.
    - (* C8 *) injection H as <-. destruct L as [a [rc [R O]]]. rewrite (with_rec_eq s _ a rc _ R).
      destruct (rec_count (key v) s =? 0);
      eapply (vinv_goto s); try eassumption; try reflexivity; try discriminate; auto.
    - (* C9 *) injection H as <-. destruct L as [a [rc [R [O Z]]]].
      rewrite (erase_rec_eq kdec s _ a rc R).
      eapply (vinv_goto s); try eassumption; try reflexivity; try discriminate; auto.
      intros k [b [rc0 [[R1 R2] O']]]. left. split; [|discriminate]. cbn in R1, R2. unfold upd in R1, R2.
      destruct (kdec k (key v)); [discriminate|]. destruct (Nat.eq_dec b a); [discriminate|].
      exists b, rc0. split; [split|]; assumption.
    - (* C10 *) injection H as <-. destruct L as [a [rc [R [O Hpos]]]].
      rewrite (unlock_rec_eq s i _ a rc R O).
      eapply (vinv_goto s); try eassumption; try reflexivity; try discriminate; auto.
      intros k Hk.
      destruct (ownerless_put_cases s _ a rc _ k I R Hk) as [[_ Q]|[-> Q]]; [|auto].
      left. split; [exact Q|discriminate].
    - (* PRead *) destruct (s_cache s (key v)) as [t|] eqn:Qc; [|exfalso; apply Hf; auto].
      injection H as <-.
      eapply (vinv_goto s); try eassumption; try reflexivity; try discriminate; auto.
      intros r Q. cbn in Q. injection Q as <-. eapply v_cache; eassumption.
    - (* PUnl *) injection H as <-. rewrite unlock_eq by auto.
      eapply (vinv_return s); try eassumption; try reflexivity; try discriminate; auto.
      apply Hr. reflexivity.
    - (* Q0 *) injection H as <-. rewrite unlock_eq by auto.
      eapply (vinv_goto s); try eassumption; try reflexivity; try discriminate; auto.
    - (* Q1 *) injection H as <-.
      eapply (vinv_return s); try eassumption; try reflexivity; try discriminate; auto.
      unfold entry_good. cbn [en_answer en_worlds en_arg].
      destruct (func (s_world s) v) as [t|] eqn:Q.
      + exists (s_world s), v. split; [apply (v_world s VI)|auto].
      + exists (s_world s). split; [apply (v_world s VI)|auto].
  Qed.

  Theorem vinv_exec : forall w progs s, exec (init w progs) s -> g_overlap s = false -> VInv s.
  Proof.
    intros w progs s H. remember (init w progs) as s0 eqn:E0.
    induction H as [s1|s1 s2 s3 i Hx IH Hi Hs]; intros Hov; [subst; apply vinv_init|].
    assert (I2 : Inv s2).
    { eapply inv_exec; [|exact Hx]. subst. apply inv_init. }
    apply (vinv_step s2 s3 i I2); try assumption. apply IH; [exact E0|].
    eapply overlap_mono; eassumption.
  Qed.
End P.
