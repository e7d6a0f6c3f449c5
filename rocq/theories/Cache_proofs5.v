(** * Calculations started, order of answers, progress and bounds *)
From Coq Require Import List Bool Arith Lia.
From Verif Require Import Cache Cache_proofs Cache_proofs2 Cache_proofs3 Cache_proofs4.
Import ListNotations.

Section P.
  Context {V K T W : Type}.
  Variable kdec : forall x y : K, {x = y} + {x <> y}.
  Variable key : V -> K.
  Variable isnan : V -> bool.
  Variable func : W -> V -> option T.
  Variable dflt : T.
  Variable active : bool.
  Variable n : nat.

  Notation label := (@label T).
  Notation state := (@state V K T W).
  Notation step := (step kdec key isnan func dflt active n).
  Notation call_step := (call_step kdec key isnan func dflt active).
  Notation exec := (exec kdec key isnan func dflt active n).
  Notation run := (run kdec key isnan func dflt active n).
  Notation Inv := (@Inv V K T W kdec key n).
  Notation sel := (@sel V K T kdec key).
  Notation entry := (@entry V T W).
  Notation starts := (@starts V K T W kdec).

  (** Pieces of a state that lock operations leave alone. *)
  Record same (s s0 : state) : Prop := mkSame {
    sm_ths : s_ths s0 = s_ths s;
    sm_cache : s_cache s0 = s_cache s;
    sm_world : s_world s0 = s_world s;
    sm_worlds : g_worlds s0 = g_worlds s;
    sm_starts : g_starts s0 = g_starts s;
    sm_dead : g_dead s0 = g_dead s
  }.

  Lemma same_refl : forall s, same s s. Proof. constructor; reflexivity. Qed.
  Lemma same_unlock : forall i s, same s (unlock i s).
  Proof.
    intros. unfold unlock. destruct (s_lock s) as [j|]; [destruct (Nat.eq_dec j i)|]; constructor; reflexivity.
  Qed.
  Lemma same_with : forall k f s, (forall a rc, same s (f a rc)) -> same s (with_rec k f s).
  Proof.
    intros k f s H. unfold with_rec. destruct (s_inproc s k) as [a|]; [|constructor; reflexivity].
    destruct (s_heap s a); [apply H|constructor; reflexivity].
  Qed.
  Lemma same_unlock_rec : forall i k s, same s (unlock_rec i k s).
  Proof.
    intros. unfold unlock_rec. apply same_with. intros a rc.
    destruct (rc_owner rc) as [j|]; [destruct (Nat.eq_dec j i)|]; constructor; reflexivity.
  Qed.
  Lemma same_erase_rec : forall k s, same s (erase_rec kdec k s).
  Proof. intros. unfold erase_rec. apply same_with. intros. constructor; reflexivity. Qed.
  Lemma same_goto : forall s s0, same s s0 -> same s s0. Proof. auto. Qed.

  (** The shape of a step inside a call. *)
  Definition moves (l l' : label) : Prop :=
    (inflight l = true -> inflight l' = true) /\
    (pre l' = true -> pre l = true \/ l = C0) .

  Inductive effect (s : state) (i : nat) (v : V) (l : label) : state -> Prop :=
  | eff_goto : forall s0 l', same s s0 -> moves l l' -> effect s i v l (goto i v l' s0)
  | eff_start : l = C4 -> effect s i v l (goto i v C4b (start (key v) s))
  | eff_store : forall r l', inflight l' = false -> pre l' = false ->
      effect s i v l (goto i v l' (set_cache (upd kdec (s_cache s) (key v) (Some r)) s))
  | eff_return : forall s0 r, same s s0 -> inflight l = false -> effect s i v l (return_ i v r s0)
  | eff_throw : effect s i v l (return_ i v None (die kdec (key v) s)).

  Lemma call_effect : forall s i v l s', call_step i s v l = Some s' -> effect s i v l s'.
  Proof.
    intros s i v l s' H.
    destruct l; cbn [Cache.call_step] in H;
      repeat match type of H with
             | match ?x with _ => _ end = _ => destruct x eqn:?; try discriminate
             end; injection H as <-;
      try (apply eff_start; reflexivity);
      try (apply eff_throw);
      try (apply eff_store; reflexivity);
      try (apply eff_return; [first [apply same_unlock|constructor; reflexivity]|reflexivity]);
      try (apply eff_goto;
           [first [apply same_refl | apply same_unlock | apply same_unlock_rec | apply same_erase_rec
                  | apply same_with; intros; constructor; reflexivity
                  | constructor; reflexivity
                  | destruct (s_cache s (key v)); constructor; reflexivity]
           | split; [intros Q; try discriminate Q; reflexivity
                    | try (intros Q; discriminate Q); auto] ]).
    - destruct (active && negb (isnan v)); discriminate.
    - destruct (s_cache s (key v)); discriminate.
    - destruct (s_inproc s (key v)); discriminate.
    - destruct (0 <? rec_count (key v) s); discriminate.
    - destruct (rec_count (key v) s =? 0); discriminate.
  Qed.

  (** ** Calculations started *)

  Record SInv (s : state) : Prop := mkSInv {
    si_once : forall k, starts s k <= 1;
    si_started : forall k, 0 < starts s k ->
                s_cache s k <> None \/ (exists j, j < n /\ sel k inflight (at_ s j) = true) \/
                g_dead s k = true;
    si_pre : forall j v l, j < n -> at_ s j = Some (v, l) -> pre l = true -> starts s (key v) = 0
  }.

  Lemma sinv_build : forall s s' i, Inv s -> SInv s -> i < n ->
    (forall j, j <> i -> at_ s' j = at_ s j) ->
    (forall k, s_cache s k <> None -> s_cache s' k <> None) ->
    (g_starts s' = g_starts s \/
     exists v, at_ s i = Some (v, C4) /\ at_ s' i = Some (v, C4b) /\ g_starts s' = key v :: g_starts s) ->
    (forall k, g_dead s k = true -> g_dead s' k = true) ->
    (forall k, sel k inflight (at_ s i) = true ->
       sel k inflight (at_ s' i) = true \/ s_cache s' k <> None \/ g_dead s' k = true) ->
    (forall v l, at_ s' i = Some (v, l) -> pre l = true -> starts s (key v) = 0) ->
    SInv s'.
  Proof.
    intros s s' i I VI Hi Ho Hc1 Hst Hd Hin Hpre.
    constructor.
    - intros k. unfold Cache_proofs4.starts. destruct Hst as [->|[v [E [E' ->]]]]; [apply (si_once s VI)|].
      cbn [count_occ]. destruct (kdec (key v) k) as [<-|]; [|apply (si_once s VI)].
      pose proof (si_pre s VI i v C4 Hi E eq_refl) as Q. unfold Cache_proofs4.starts in Q. lia.
    - intros k Hk. assert (Hor : 0 < starts s k \/ sel k inflight (at_ s' i) = true).
      { unfold Cache_proofs4.starts in *. destruct Hst as [Es|[v [E [E' Es]]]]; rewrite Es in Hk; [left; exact Hk|].
        cbn [count_occ] in Hk. destruct (kdec (key v) k) as [<-|]; [|left; exact Hk].
        right. rewrite E', sel_some. reflexivity. }
      destruct Hor as [Hs|Hs]; [|right; left; exists i; auto].
      destruct (si_started s VI k Hs) as [Q|[[j [Hj Q]]|Q]]; auto.
      destruct (Nat.eq_dec j i) as [->|Hji].
      + destruct (Hin k Q) as [Q1|[Q1|Q1]]; auto. right; left. exists i. auto.
      + right; left. exists j. rewrite (Ho j Hji). auto.
    - intros j v l Hj E Hp.
      assert (Hs : starts s (key v) = 0).
      { destruct (Nat.eq_dec j i) as [->|Hji]; [eauto|]. rewrite (Ho j Hji) in E.
        eapply si_pre; eassumption. }
      unfold Cache_proofs4.starts in *. destruct Hst as [->|[v0 [E0 [E0' ->]]]]; [exact Hs|].
      cbn [count_occ]. destruct (kdec (key v0) (key v)) as [Ek|]; [|exact Hs]. exfalso.
      destruct (Nat.eq_dec j i) as [->|Hji].
      { rewrite E0' in E. injection E as <- <-. discriminate. }
      rewrite (Ho j Hji) in E.
      destruct (holder l) eqn:Hh.
      + apply Hji. eapply (holder_unique kdec key n s j i v v0 l C4); try eassumption; auto.
      + destruct l; try discriminate. destruct (inv_local _ _ _ s I j Hj _ _ E) as [_ [a R]].
        destruct (inv_local _ _ _ s I i Hi _ _ E0) as [_ [a0 [rc0 [R0 O0]]]].
        rewrite Ek in R0. destruct (hasrec_fun _ _ _ _ _ _ R R0) as [_ <-]. discriminate.
  Qed.

  Lemma sinv_step : forall s s' i, Inv s -> SInv s -> i < n -> step i s = Some s' -> SInv s'.
  Proof.
    intros s s' i I SI Hi H. unfold Cache.step in H.
    destruct (th_at (s_ths s i)) as [[v l]|] eqn:E.
    - change (at_ s i = Some (v, l)) in E. apply call_effect in H. inversion H; subst s'.
      + destruct H0 as [S1 S2 S3 S4 S5 S6]. destruct H1 as [M1 M2].
        apply (sinv_build s _ i I SI Hi); cbn [goto s_cache g_starts g_dead]; rewrite ?S2, ?S5, ?S6; auto.
        * intros j Hj. rewrite at_goto' by exact Hj. unfold at_. rewrite S1. reflexivity.
        * intros k. rewrite at_goto, E. cbn [Cache_proofs.sel].
          destruct (kdec (key v) k); [auto|discriminate].
        * intros v' l0 Q Hp. rewrite at_goto in Q. injection Q as <- <-.
          destruct (M2 Hp) as [Q| ->]; [eapply si_pre; eassumption|].
          destruct (starts s (key v)) eqn:Qs; [reflexivity|]. exfalso.
          destruct (inv_local _ _ _ s I i Hi _ _ E) as [Lc L]. cbn in L.
          destruct (si_started s SI (key v)) as [Q1|[[j [Hj Q1]]|Q1]]; [lia| | |].
          -- apply Q1. apply Lc. reflexivity.
          -- destruct (sel_inv _ _ _ _ _ Q1) as [v' [l'' [E' [Ek Hh]]]].
             destruct (local_involved key s j v' l'' (inv_local _ _ _ s I j Hj _ _ E')) as [a [rc [R _]]];
               [destruct l''; try discriminate; reflexivity|congruence].
          -- destruct (inv_dead _ _ _ s I _ Q1) as [_ [Q2 _]]. congruence.
      + subst l. apply (sinv_build s _ i I SI Hi); cbn [goto start s_cache g_starts g_dead]; auto.
        * intros j Hj. rewrite at_goto' by exact Hj. reflexivity.
        * right. exists v. rewrite at_goto. auto.
        * intros k. rewrite E. cbn. destruct (kdec (key v) k); discriminate.
        * intros v' l' Q. rewrite at_goto in Q. injection Q as <- <-. discriminate.
      + apply (sinv_build s _ i I SI Hi); cbn [goto set_cache s_cache g_starts g_dead]; auto.
        * intros j Hj. rewrite at_goto' by exact Hj. reflexivity.
        * intros k Q. unfold upd. destruct (kdec k (key v)); [discriminate|exact Q].
        * intros k. rewrite E. cbn [Cache_proofs.sel]. destruct (kdec (key v) k) as [<-|]; [|discriminate].
          intros _. right; left. rewrite upd_same. discriminate.
        * intros v' l0 Q. rewrite at_goto in Q. injection Q as <- <-. congruence.
      + destruct H0 as [S1 S2 S3 S4 S5 S6].
        apply (sinv_build s _ i I SI Hi); cbn [return_ s_cache g_starts g_dead]; rewrite ?S2, ?S5, ?S6; auto.
        * intros j Hj. rewrite at_return' by exact Hj. unfold at_. rewrite S1. reflexivity.
        * intros k. rewrite E. cbn [Cache_proofs.sel]. destruct (kdec (key v) k); congruence.
        * intros v' l0 Q. rewrite at_return in Q. discriminate.
      + apply (sinv_build s _ i I SI Hi); cbn [return_ die s_cache g_starts g_dead]; auto.
        * intros j Hj. rewrite at_return' by exact Hj. reflexivity.
        * intros k Q. unfold upd. destruct (kdec k (key v)); auto.
        * intros k. rewrite E. cbn [Cache_proofs.sel]. destruct (kdec (key v) k) as [<-|]; [|discriminate].
          intros _. right; right. apply upd_same.
        * intros v' l0 Q. rewrite at_return in Q. discriminate.
    - change (at_ s i = None) in E.
      destruct (th_prog (s_ths s i)) as [|[v| |w] rest]; [discriminate| | |]; injection H as <-.
      + apply (sinv_build s _ i I SI Hi); unfold at_; cbn [s_ths s_cache g_starts g_dead];
          try (rewrite upd_same); auto; cbn [th_at].
        * intros j Hj. rewrite upd_other by exact Hj. reflexivity.
        * intros k. unfold at_ in E. rewrite E. discriminate.
        * intros v' l Q Q'. injection Q as <- <-. discriminate.
      + constructor; unfold Cache_proofs4.starts; cbn [g_starts count_occ]; auto; lia.
      + apply (sinv_build s _ i I SI Hi); unfold at_; cbn [s_ths s_cache g_starts g_dead];
          try (rewrite upd_same); auto; cbn [th_at].
        * intros j Hj. rewrite upd_other by exact Hj. reflexivity.
        * intros k. unfold at_ in E. rewrite E. discriminate.
        * discriminate.
  Qed.

  Lemma sinv_exec : forall w progs s, exec (init w progs) s -> SInv s.
  Proof.
    intros w progs s H. remember (init w progs) as s0 eqn:E0.
    induction H as [s1|s1 s2 s3 i Hx IH Hi Hs].
    - subst. constructor; unfold Cache_proofs4.starts; cbn; intros; try lia; discriminate.
    - assert (I2 : Inv s2).
      { eapply inv_exec; [|exact Hx]. subst. apply inv_init. }
      exact (sinv_step s2 s3 i I2 (IH E0) Hi Hs).
  Qed.

  (** ** Programs and answers *)

  Definition calls_of (p : list (@op V W)) : list V :=
    flat_map (fun o => match o with Call v => [v] | _ => [] end) p.
  Definition current (x : option (V * label)) : list V :=
    match x with Some (v, _) => [v] | None => [] end.
  Definition history (t : @thread V T W) : list V :=
    map en_arg (th_log t) ++ current (th_at t) ++ calls_of (th_prog t).

  Lemma history_step : forall s s' i, step i s = Some s' ->
    forall j, history (s_ths s' j) = history (s_ths s j).
  Proof.
    intros s s' i H j. unfold Cache.step in H.
    destruct (th_at (s_ths s i)) as [[v l]|] eqn:E.
    - apply call_effect in H.
      assert (Hg : forall (s0 : state) l', s_ths s0 = s_ths s -> history (s_ths (goto i v l' s0) j) = history (s_ths s j)).
      { intros s0 l' Es. cbn [goto s_ths]. rewrite Es. destruct (Nat.eq_dec j i) as [->|Hj].
        - rewrite upd_same. unfold history. cbn [th_log th_at th_prog]. rewrite E. reflexivity.
        - rewrite upd_other by exact Hj. reflexivity. }
      assert (Hr : forall (s0 : state) r, s_ths s0 = s_ths s -> history (s_ths (return_ i v r s0) j) = history (s_ths s j)).
      { intros s0 r Es. cbn [return_ s_ths]. rewrite Es. destruct (Nat.eq_dec j i) as [->|Hj].
        - rewrite upd_same. unfold history. cbn [th_log th_at th_prog]. rewrite E.
          rewrite map_app. rewrite <- app_assoc. reflexivity.
        - rewrite upd_other by exact Hj. reflexivity. }
      inversion H; subst s'; try (apply Hg); try (apply Hr); try reflexivity; apply sm_ths; assumption.
    - destruct (th_prog (s_ths s i)) as [|o rest] eqn:Ep; [discriminate|].
      destruct o; injection H as <-; cbn [s_ths];
        (destruct (Nat.eq_dec j i) as [->|Hj];
          [rewrite upd_same; unfold history; rewrite E, Ep; reflexivity
          |rewrite upd_other by exact Hj; reflexivity]).
  Qed.

  Lemma history_exec : forall w progs s, exec (init w progs) s ->
    forall j, history (s_ths s j) = calls_of (progs j).
  Proof.
    intros w progs s H. remember (init w progs) as s0 eqn:E0.
    induction H as [s1|s1 s2 s3 i Hx IH Hi Hs]; intros j.
    - subst. reflexivity.
    - rewrite (history_step s2 s3 i Hs j). apply IH. exact E0.
  Qed.

  (** ** Nothing throws, nothing dies *)

  Lemma alive_step : (forall w v, func w v <> None) -> forall s s' i, step i s = Some s' ->
    (forall k, g_dead s k = false) -> forall k, g_dead s' k = false.
  Proof.
    intros Ht s s' i H Hd k. unfold Cache.step in H.
    destruct (th_at (s_ths s i)) as [[v l]|] eqn:E.
    - assert (Hx : l = C4b -> g_dead s' k = g_dead s k).
      { intros ->. cbn in H. destruct (func (s_world s) v) eqn:Q; [|exfalso; eapply Ht; eassumption].
        injection H as <-. reflexivity. }
      destruct l; try (rewrite Hx by reflexivity; apply Hd); clear Hx;
      cbn [Cache.call_step] in H;
      repeat match type of H with
             | match ?x with _ => _ end = _ => destruct x eqn:?; try discriminate
             end; injection H as <-; try apply Hd; cbn [goto return_ g_dead];
        rewrite ?(sm_dead _ _ (same_unlock i s)), ?(sm_dead _ _ (same_unlock_rec i (key v) s)),
                ?(sm_dead _ _ (same_erase_rec (key v) s)); try apply Hd;
        try (rewrite (sm_dead s); [apply Hd|apply same_with; intros; constructor; reflexivity]).
      destruct (s_cache s (key v)); apply Hd.
    - destruct (th_prog (s_ths s i)) as [|o rest]; [discriminate|].
      destruct o; injection H as <-; apply Hd.
  Qed.

  Lemma alive_exec : (forall w v, func w v <> None) -> forall w progs s, exec (init w progs) s ->
    forall k, g_dead s k = false.
  Proof.
    intros Ht w progs s H. remember (init w progs) as s0 eqn:E0.
    induction H as [s1|s1 s2 s3 i Hx IH Hi Hs].
    - subst. reflexivity.
    - exact (alive_step Ht s2 s3 i Hs (IH E0)).
  Qed.

  (** ** Progress *)

  (** Waiting for the record of a key whose calculation threw. *)
  Definition stuck (s : state) (j : nat) : Prop :=
    exists v a, at_ s j = Some (v, W3 a) /\ g_dead s (key v) = true.

  Lemma crit_steps : forall s j v l, Inv s -> j < n -> at_ s j = Some (v, l) -> crit l = true ->
    step j s <> None.
  Proof.
    intros s j v l I Hj E Hc. unfold Cache.step. change (th_at (s_ths s j)) with (at_ s j). rewrite E.
    destruct (inv_local _ _ _ s I j Hj _ _ E) as [Lc L].
    destruct l; try discriminate Hc; cbn [Cache.call_step]; try discriminate.
    - destruct (s_inproc s (key v)); discriminate.
    - destruct (s_inproc s (key v)); discriminate.
    - destruct L as [a R]. rewrite (proj1 R), (proj2 R). discriminate.
    - destruct (s_cache s (key v)); discriminate.
  Qed.

  Theorem progress : forall s, Inv s ->
    (forall j, j < n -> idle (s_ths s j) \/ stuck s j) \/ exists i, i < n /\ step i s <> None.
  Proof.
    intros s I. destruct (s_lock s) as [j|] eqn:Ql.
    { right. destruct (inv_lock' _ _ _ s I j Ql) as [Hj [v [l [E Hc]]]]. exists j. split; [exact Hj|].
      eapply crit_steps; eassumption. }
    assert (Hone : forall j, j < n -> (idle (s_ths s j) \/ stuck s j) \/ exists i, i < n /\ step i s <> None).
    { intros j Hj. destruct (at_ s j) as [[v l]|] eqn:E.
      2:{ destruct (th_prog (s_ths s j)) as [|o rest] eqn:Ep; [left; left; split; assumption|].
          right. exists j. split; [exact Hj|]. unfold Cache.step. unfold at_ in E. rewrite E, Ep.
          destruct o; discriminate. }
      assert (Hnc : crit l = false).
      { destruct (crit l) eqn:Q; [|reflexivity]. rewrite (inv_lock _ _ _ s I j Hj _ _ E Q) in Ql. discriminate. }
      assert (Hgo : call_step j s v l <> None -> (idle (s_ths s j) \/ stuck s j) \/ exists i, i < n /\ step i s <> None).
      { intros Q. right. exists j. split; [exact Hj|]. unfold Cache.step. unfold at_ in E. rewrite E. exact Q. }
      destruct l; try discriminate Hnc; try (apply Hgo; cbn [Cache.call_step]; rewrite ?Ql; discriminate).
      - destruct (inv_local _ _ _ s I j Hj _ _ E) as [_ [rc R]].
        destruct (inv_rec _ _ _ s I _ _ (proj1 R)) as [_ [rc0 [R0 [N Ow]]]].
        rewrite (proj2 R) in R0. injection R0 as <-.
        destruct (rc_owner rc) as [j'|] eqn:O.
        + destruct Ow as [[Hj' Ow]|Ow].
          * right. exists j'. split; [exact Hj'|].
            destruct (sel_inv _ _ _ _ _ Ow) as [v' [l' [E' [Ek Hh]]]].
            assert (Hnc' : crit l' = false).
            { destruct (crit l') eqn:Q; [|reflexivity].
              rewrite (inv_lock _ _ _ s I j' Hj' _ _ E' Q) in Ql. discriminate. }
            unfold Cache.step. unfold at_ in E'. rewrite E'.
            destruct l'; try discriminate Hnc'; try discriminate Hh; cbn [Cache.call_step];
              rewrite ?Ql; try discriminate.
            destruct (func (s_world s) v'); discriminate.
          * left; right. exists v, a. auto.
        + apply Hgo. cbn [Cache.call_step]. rewrite (proj2 R), O. discriminate.
      - apply Hgo. cbn [Cache.call_step]. destruct (func (s_world s) v); discriminate. }
    assert (Hall : forall m, m <= n ->
              (forall j, j < m -> idle (s_ths s j) \/ stuck s j) \/ exists i, i < n /\ step i s <> None).
    { induction m as [|m IH]; intros Hm; [left; intros; lia|].
      destruct (IH ltac:(lia)) as [IH'|]; [|auto].
      destruct (Hone m ltac:(lia)) as [Q|]; [|auto]. left. intros j Hj.
      destruct (Nat.eq_dec j m) as [->|]; [exact Q|]. apply IH'. lia. }
    apply Hall. lia.
  Qed.

  (** ** Every schedule ends *)

  Definition rank (l : label) : nat :=
    match l with
    | P0 => 17 | P1 => 16 | P2 => 15 | P3 => 14
    | W0 => 13 | W1 => 12 | W2 _ => 11 | W3 _ => 10 | W4 => 9 | W5 => 8 | W6 => 7 | W7 => 3 | W8 => 3
    | C0 => 13 | C1 => 12 | C2 => 11 | C3 => 10 | C4 => 9 | C4b => 8 | C5 _ => 7 | C6 _ => 6
    | C7 _ => 5 | C8 => 4 | C9 => 3 | C10 => 3
    | PRead => 2 | PUnl _ => 1
    | Q0 => 2 | Q1 => 1
    end.
  Definition work (t : @thread V T W) : nat :=
    18 * length (th_prog t) + match th_at t with Some (_, l) => rank l | None => 0 end.
  Fixpoint total (f : nat -> nat) (m : nat) : nat :=
    match m with O => 0 | S j => f j + total f j end.

  Lemma total_change : forall f g i m, i < m -> (forall j, j <> i -> g j = f j) ->
    total g m + f i = total f m + g i.
  Proof.
    intros f g i m. induction m as [|m IH]; intros Hi H; [lia|]. cbn [total].
    destruct (Nat.eq_dec i m) as [->|Hn].
    - assert (E : total g m = total f m); [|lia].
      clear - H. assert (Q : forall p, p <= m -> total g p = total f p); [|apply Q; lia].
      induction p as [|p IH]; intros Hp; [reflexivity|]. cbn [total]. rewrite H by lia. rewrite IH by lia. reflexivity.
    - rewrite (H m) by lia. specialize (IH ltac:(lia) H). lia.
  Qed.

  Lemma work_step : forall s s' i, step i s = Some s' ->
    (forall j, j <> i -> s_ths s' j = s_ths s j) /\ work (s_ths s' i) < work (s_ths s i).
  Proof.
    intros s s' i H. unfold Cache.step in H.
    destruct (th_at (s_ths s i)) as [[v l]|] eqn:E.
    - assert (Hg : forall (s0 : state) l', s_ths s0 = s_ths s -> rank l' < rank l ->
                   (forall j, j <> i -> s_ths (goto i v l' s0) j = s_ths s j) /\
                   work (s_ths (goto i v l' s0) i) < work (s_ths s i)).
      { intros s0 l' Es Hr. cbn [goto s_ths]. rewrite Es. split.
        - intros j Hj. rewrite upd_other by exact Hj. reflexivity.
        - rewrite upd_same. unfold work. cbn [th_prog th_at]. rewrite E. lia. }
      assert (Hret : forall (s0 : state) r, s_ths s0 = s_ths s ->
                   (forall j, j <> i -> s_ths (return_ i v r s0) j = s_ths s j) /\
                   work (s_ths (return_ i v r s0) i) < work (s_ths s i)).
      { intros s0 r Es. cbn [return_ s_ths]. rewrite Es. split.
        - intros j Hj. rewrite upd_other by exact Hj. reflexivity.
        - rewrite upd_same. unfold work. cbn [th_prog th_at]. rewrite E. destruct l; cbn [rank]; lia. }
      destruct l; cbn [Cache.call_step] in H;
        repeat match type of H with
               | match ?x with _ => _ end = _ => destruct x eqn:?; try discriminate
               end; injection H as <-;
        first [apply Hret | apply Hg];
        first [reflexivity | apply sm_ths; apply same_unlock | apply sm_ths; apply same_unlock_rec
              | apply sm_ths; apply same_erase_rec
              | apply sm_ths; apply same_with; intros; constructor; reflexivity
              | cbn [rank]; lia | idtac].
      + destruct (active && negb (isnan v)); cbn [rank]; lia.
      + destruct (s_cache s (key v)); cbn [rank]; lia.
      + destruct (s_inproc s (key v)); cbn [rank]; lia.
      + destruct (0 <? rec_count (key v) s); cbn [rank]; lia.
      + destruct (s_cache s (key v)); reflexivity.
      + destruct (rec_count (key v) s =? 0); cbn [rank]; lia.
    - destruct (th_prog (s_ths s i)) as [|o rest] eqn:Ep; [discriminate|].
      destruct o; injection H as <-; cbn [s_ths]; split; intros;
        try (rewrite upd_other by assumption; reflexivity);
        rewrite upd_same; unfold work; rewrite Ep, E; cbn [th_prog th_at length rank]; lia.
  Qed.

  Definition todo (s : state) : nat := total (fun j => work (s_ths s j)) n.

  Lemma todo_step : forall s s' i, i < n -> step i s = Some s' -> todo s' < todo s.
  Proof.
    intros s s' i Hi H. destruct (work_step s s' i H) as [H1 H2]. unfold todo.
    pose proof (total_change (fun j => work (s_ths s j)) (fun j => work (s_ths s' j)) i n Hi) as C.
    cbn beta in C. assert (Q : forall j, j <> i -> work (s_ths s' j) = work (s_ths s j)).
    { intros j Hj. rewrite H1 by exact Hj. reflexivity. }
    specialize (C Q). lia.
  Qed.

  Lemma run_bound : forall sched s s', run sched s = Some s' -> length sched + todo s' <= todo s.
  Proof.
    induction sched as [|i sched IH]; intros s s' H; cbn [Cache.run] in H.
    - injection H as <-. cbn. lia.
    - destruct (i <? n) eqn:Hi; [|discriminate]. apply Nat.ltb_lt in Hi.
      destruct (step i s) as [s1|] eqn:Es; [|discriminate].
      specialize (IH _ _ H). pose proof (todo_step s s1 i Hi Es). cbn [length]. lia.
  Qed.

  Lemma todo_init : forall w progs, todo (init w progs) = 18 * total (fun j => length (progs j)) n.
  Proof.
    intros w progs. unfold todo. induction n as [|m IH]; [reflexivity|]. cbn [total]. rewrite IH.
    unfold work, init. cbn [s_ths th_prog th_at]. lia.
  Qed.

  Lemma run_exec : forall sched s s1 s', exec s s1 -> run sched s1 = Some s' -> exec s s'.
  Proof.
    induction sched as [|i sched IH]; intros s s1 s' Hx H; cbn [Cache.run] in H.
    - injection H as <-. exact Hx.
    - destruct (i <? n) eqn:Hi; [|discriminate]. apply Nat.ltb_lt in Hi.
      destruct (step i s1) as [s2|] eqn:Es; [|discriminate].
      eapply IH; [|exact H]. eapply exec_step; eassumption.
  Qed.

  (** Every execution can be continued until nothing moves. *)
  Lemma run_to_end : forall m s, todo s <= m ->
    exists s', exec s s' /\ forall i, i < n -> step i s' = None.
  Proof.
    induction m as [|m IH]; intros s Hm.
    - exists s. split; [apply exec_refl|]. intros i Hi. destruct (step i s) as [s1|] eqn:Es; [|reflexivity].
      pose proof (todo_step s s1 i Hi Es). lia.
    - assert (Hdec : (forall i, i < n -> step i s = None) \/ exists i, i < n /\ step i s <> None).
      { clear. assert (Hall : forall p, p <= n -> (forall i, i < p -> step i s = None) \/
                                       exists i, i < n /\ step i s <> None).
        { induction p as [|p IHp]; intros Hp; [left; intros; lia|].
          destruct (IHp ltac:(lia)) as [Q|]; [|auto].
          destruct (step p s) eqn:Es; [right; exists p; split; [lia|congruence]|].
          left. intros i Hi. destruct (Nat.eq_dec i p) as [->|]; [exact Es|apply Q; lia]. }
        apply Hall. lia. }
      destruct Hdec as [Q|[i [Hi Q]]]; [exists s; split; [apply exec_refl|exact Q]|].
      destruct (step i s) as [s1|] eqn:Es; [|congruence].
      pose proof (todo_step s s1 i Hi Es). destruct (IH s1 ltac:(lia)) as [s' [Hx Hs']].
      exists s'. split; [|exact Hs'].
      assert (Htr : forall a b, exec a b -> forall c, exec c a -> exec c b).
      { intros a b Hab. induction Hab; intros c Hc; [exact Hc|].
        eapply exec_step; [apply IHHab; exact Hc|eassumption|eassumption]. }
      apply (Htr s1 s' Hx). eapply exec_step; [apply exec_refl|exact Hi|exact Es].
  Qed.

  (** ** No clear, no overlap; one thread, no overlap *)

  Lemma overlap_step : forall s s' i, step i s = Some s' -> g_overlap s = false ->
    (forall j, ~ In Clear (th_prog (s_ths s j))) ->
    g_overlap s' = false /\ forall j, ~ In Clear (th_prog (s_ths s' j)).
  Proof.
    intros s s' i H Hov Hc. unfold Cache.step in H.
    destruct (th_at (s_ths s i)) as [[v l]|] eqn:E.
    - assert (Hp : forall j, th_prog (s_ths s' j) = th_prog (s_ths s j)).
      { intros j.
        assert (Hg : forall (s0 : state) l', s_ths s0 = s_ths s -> th_prog (s_ths (goto i v l' s0) j) = th_prog (s_ths s j)).
        { intros s0 l' Es. cbn [goto s_ths]. rewrite Es. destruct (Nat.eq_dec j i) as [->|Hj].
          - rewrite upd_same. reflexivity.
          - rewrite upd_other by exact Hj. reflexivity. }
        assert (Hr : forall (s0 : state) r, s_ths s0 = s_ths s -> th_prog (s_ths (return_ i v r s0) j) = th_prog (s_ths s j)).
        { intros s0 r Es. cbn [return_ s_ths]. rewrite Es. destruct (Nat.eq_dec j i) as [->|Hj].
          - rewrite upd_same. reflexivity.
          - rewrite upd_other by exact Hj. reflexivity. }
        apply call_effect in H.
        inversion H; subst s'; try (apply Hg); try (apply Hr); try reflexivity; apply sm_ths; assumption. }
      split; [|intros j; rewrite Hp; apply Hc].
      assert (Hun : forall s0 : state, g_overlap (unlock i s0) = g_overlap s0).
      { intros s0. unfold unlock. destruct (s_lock s0) as [j|]; [destruct (Nat.eq_dec j i)|]; reflexivity. }
      assert (Hwr : forall k f (s0 : state), (forall a rc, g_overlap (f a rc) = g_overlap s0) ->
                    g_overlap (with_rec k f s0) = g_overlap s0).
      { intros k f s0 Hf. unfold with_rec. destruct (s_inproc s0 k); [|reflexivity].
        destruct (s_heap s0 n0); [apply Hf|reflexivity]. }
      assert (Hur : forall k (s0 : state), g_overlap (unlock_rec i k s0) = g_overlap s0).
      { intros k s0. unfold unlock_rec. apply Hwr. intros a rc.
        destruct (rc_owner rc) as [j|]; [destruct (Nat.eq_dec j i)|]; reflexivity. }
      assert (Her : forall k (s0 : state), g_overlap (erase_rec kdec k s0) = g_overlap s0).
      { intros k s0. unfold erase_rec. apply Hwr. reflexivity. }
      destruct l; cbn [Cache.call_step] in H;
        repeat match type of H with
               | match ?x with _ => _ end = _ => destruct x; try discriminate
               end; injection H as <-; cbn [goto return_ g_overlap set_lock put_rec set_heap set_inproc
                 set_next set_cache violate start die];
        rewrite ?Hun, ?Hur, ?Her; auto; try (rewrite Hwr; auto; fail).
      destruct (s_cache s (key v)); auto.
    - destruct (th_prog (s_ths s i)) as [|o rest] eqn:Ep; [discriminate|].
      pose proof (Hc i) as Hci. rewrite Ep in Hci.
      destruct o; [| exfalso; apply Hci; left; reflexivity |]; injection H as <-; cbn [g_overlap s_ths];
        (split; [exact Hov|]; intros j; destruct (Nat.eq_dec j i) as [->|Hj];
          [rewrite upd_same; cbn [th_prog]; intros Q; apply Hci; right; exact Q
          |rewrite upd_other by exact Hj; apply Hc]).
  Qed.

  Lemma overlap_exec : forall w progs s, (forall j, ~ In Clear (progs j)) ->
    exec (init w progs) s -> g_overlap s = false.
  Proof.
    intros w progs s Hc H.
    assert (Q : g_overlap s = false /\ forall j, ~ In Clear (th_prog (s_ths s j))); [|apply Q].
    remember (init w progs) as s0 eqn:E0.
    induction H as [s1|s1 s2 s3 i Hx IH Hi Hs].
    - subst. split; [reflexivity|exact Hc].
    - destruct (IH E0). eapply overlap_step; eassumption.
  Qed.
End P.
