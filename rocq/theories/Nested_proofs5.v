(** * Many caches: answers, no deadlock, bounded length *)
From Coq Require Import List Bool Arith Lia.
From Verif Require Import Cache Cache_proofs Cache_proofs4 CVal CVal_proofs2 Nested Nested_spec Nested_proofs Nested_proofs2
  Nested_proofs3 Nested_proofs4.
Import ListNotations.

Section P.
  Context {O V K T : Type}.
  Variable odec : forall x y : O, {x = y} + {x <> y}.
  Variable kdec : forall x y : K, {x = y} + {x <> y}.
  Variable key : V -> K.
  Variable isnan : V -> bool.
  Variable dflt : T.
  Variable active : O -> bool.
  Variable is_value : O -> bool.
  Variable ctor : O -> nat.
  Variable body : O -> V -> @prog O V T.
  Variable uses : O -> O -> Prop.
  Variable h : O -> nat.
  Hypothesis Hf : follows body uses.
  Hypothesis Hh : forall o o', uses o o' -> h o' < h o.
  Hypothesis Hs : same_entry body key is_value.

  Notation prog := (@prog O V T).
  Notation act := (@act O V T).
  Notation nstate := (@nstate O V K T).
  Notation f := (@fn O V T body h dflt).
  Notation c := (@cs O V T body h dflt).
  Notation ninit := (@ninit O V K T dflt is_value ctor).
  Notation nstep := (@nstep O V K T odec kdec key isnan dflt active body).
  Notation nexec := (@nexec O V K T odec kdec key isnan dflt active body).
  Notation nrun := (@nrun O V K T odec kdec key isnan dflt active body).
  Notation move := (@move O V K T kdec key isnan dflt active).
  Notation OI := (@OI O V K T kdec key is_value ctor f).
  Notation NI := (@NI O V K T kdec key dflt is_value ctor body h).
  Notation okact := (@okact O V K T dflt body h).
  Notation pot := (@pot O V K T dflt body h).
  Notation below := (@below O h).

  Definition G0 (ps : list prog) : @ghost O V T :=
    mkG (fun i => match nth_error ps i with Some p => eval f p | None => dflt end) (fun _ => Code None None).

  Lemma asks_any : forall p : prog, asks_only (below None) p.
  Proof.
    induction p as [r|o v k IH|ps k IHs IH] using prog_ind'; constructor; auto. exact I.
  Qed.

  Lemma NI_init : forall ps, NI (G0 ps) (ninit ps).
  Proof.
    intros ps. constructor; cbn [Nested.ninit n_tasks n_next n_objs].
    - intros i Hi. destruct (nth_error ps i) as [p|] eqn:E; [|apply nth_error_None in E; lia].
      exists (Run p). split; [reflexivity|]. cbn [Nested_proofs3.okact]. exists None, None. split; [reflexivity|].
      split; [apply asks_any|]. cbn [G0 res]. rewrite E. reflexivity.
    - intros i Hi. apply nth_error_None in Hi. rewrite Hi. reflexivity.
    - intros o i. left. destruct (is_value o); reflexivity.
    - intros o i _. destruct (is_value o); reflexivity.
    - intros o. apply OI_init.
    - intros i b m _ E. discriminate.
  Qed.

  Lemma NI_exec : forall ps s, nexec (ninit ps) s -> exists G, NI G s /\ agree (length ps) (G0 ps) G /\ length ps <= n_next s.
  Proof.
    intros ps s H. remember (ninit ps) as s0 eqn:E0. induction H as [s|s1 s2 s3 i af H IH Hst].
    - subst s. exists (G0 ps). split; [apply NI_init|]. split; [intros j _; auto|]. cbn. lia.
    - destruct (IH E0) as [G [I [A L]]].
      destruct (NI_step odec kdec key isnan dflt active is_value ctor body uses h Hf Hh Hs G s2 s3 i af I Hst) as [G' [A' [I' _]]].
      exists G'. split; [exact I'|]. split.
      + intros j Hj. destruct (A j Hj) as [-> ->] || (destruct (A j Hj) as [B1 B2]; destruct (A' j ltac:(lia)) as [B3 B4]; split; congruence).
        all: auto.
      + clear - Hst L. unfold Nested.nstep in Hst.
        destruct (n_tasks s2 i) as [a|]; [|discriminate].
        destruct a as [p|q p|q k|js k|o v|o v q|r]; [destruct p as [r|o v k|ps' k]| | | | | |discriminate];
          repeat match type of Hst with
                 | match ?x with _ => _ end = _ => destruct x; try discriminate
                 end; injection Hst as <-; cbn [put new seto settle n_next]; lia.
  Qed.

  (** ** Answers *)
  Theorem right_answers : forall ps s, nexec (ninit ps) s ->
    forall i p r, nth_error ps i = Some p -> finished s i r -> means body p r.
  Proof.
    intros ps s H i p r Ep Hr. destruct (NI_exec ps s H) as [G [I [A L]]].
    assert (Hi : i < length ps) by (apply nth_error_Some; congruence).
    destruct (ni_some _ _ _ _ _ _ _ _ _ I i ltac:(lia)) as [a [E Hok]].
    unfold finished in Hr. rewrite E in Hr. injection Hr as ->. cbn [Nested_proofs3.okact] in Hok. subst r.
    destruct (A i Hi) as [-> _]. cbn [G0 res]. rewrite Ep. apply (means_all body uses h dflt Hf Hh).
  Qed.

  Theorem caches_sound : forall ps s, nexec (ninit ps) s -> forall o, sound kdec (n_objs s o).
  Proof.
    intros ps s H o. destruct (NI_exec ps s H) as [G [I _]]. eapply OI_sound. apply (ni_obj _ _ _ _ _ _ _ _ _ I).
  Qed.

  Theorem caches_right : forall ps s, nexec (ninit ps) s -> forall o, answers_right body o (n_objs s o).
  Proof.
    intros ps s H o. destruct (NI_exec ps s H) as [G [I _]].
    pose proof (ni_obj _ _ _ _ _ _ _ _ _ I o) as HO.
    pose proof (fun i => ni_log _ _ _ _ _ _ _ _ _ I o i) as HL.
    destruct (n_objs s o) as [t|t]; cbn [answers_right].
    - intros i e Hin. destruct HO as [_ [HO _]].
      destruct (Nat.lt_ge_cases i (n_next s)) as [Hi|Hi].
      2:{ specialize (HL i Hi). cbn [nolog] in HL. rewrite HL in Hin. destruct Hin. }
      destruct (HO (n_next s) (le_n _)) as [_ VI].
      assert (Hg : entry_good key (ffun f o) e) by (eapply (v_log _ _ _ _ t VI i); eassumption). unfold entry_good, good, ffun in Hg.
      destruct (en_answer e) as [r|].
      + destruct Hg as [w [v' [_ [Ek Ef]]]]. injection Ef as <-. exists (f o v'). split; [reflexivity|].
        apply (Hs o v' (en_arg e)); [auto|]. apply (means_fn body uses h dflt Hf Hh).
      + destruct Hg as [w [_ Hg]]. discriminate.
    - intros i e v Hin. destruct HO as [_ [HO _]].
      destruct (Nat.lt_ge_cases i (n_next s)) as [Hi|Hi].
      2:{ specialize (HL i Hi). cbn [nolog] in HL. rewrite HL in Hin. destruct Hin. }
      destruct (HO (n_next s) (le_n _)) as [_ VI].
      assert (Hg : ventry_good (vfun (f o v)) e) by (eapply (vv_log _ _ _ (VI v) i); eassumption).
      destruct Hg as [w [_ Ef]]. unfold vfun in Ef.
      exists (f o v). split; [congruence|]. apply (means_fn body uses h dflt Hf Hh).
  Qed.

  (** ** Length *)
  Lemma run_length : forall sched G s s', NI G s -> nrun sched s = Some s' -> length sched <= pot G s.
  Proof.
    induction sched as [|[i af] sched IH]; intros G s s' I H; cbn [length Nested.nrun] in *; [lia|].
    destruct (nstep i af s) as [s1|] eqn:E; [|discriminate].
    destruct (NI_step odec kdec key isnan dflt active is_value ctor body uses h Hf Hh Hs G s s1 i af I E) as [G' [_ [I' Hp]]].
    specialize (IH G' s1 s' I' H). lia.
  Qed.

  Theorem bounded : forall ps, exists B, forall sched s, nrun sched (ninit ps) = Some s -> length sched <= B.
  Proof.
    intros ps. exists (pot (G0 ps) (ninit ps)). intros sched s H. eapply run_length; [apply NI_init|exact H].
  Qed.

  (** ** No deadlock *)
  Definition can (s : nstate) : Prop := exists e, forall af, nstep e af s <> None.
  Definition live (a : act) : Prop := match a with Fin _ | After _ _ => False | _ => True end.

  Section Dead.
    Variable G : @ghost O V T.
    Variable s : nstate.
    Hypothesis I : NI G s.

    Lemma task : forall i, i < n_next s -> exists a, n_tasks s i = Some a /\ okact G (n_objs s) (n_next s) i a.
    Proof. apply (ni_some _ _ _ _ _ _ _ _ _ I). Qed.

    Lemma chain : forall i q p, i < n_next s -> n_tasks s i = Some (After q p) ->
      can s \/ exists j a, j < i /\ tg G j = tg G i /\ n_tasks s j = Some a /\ live a.
    Proof.
      induction i as [i IH] using (well_founded_induction lt_wf). intros q p Hi E.
      destruct (task i Hi) as [a [E' Hok]]. rewrite E in E'. injection E' as <-.
      destruct Hok as [b [m [Ht [_ [_ [Hq Htq]]]]]].
      destruct (task q ltac:(lia)) as [a [Eq Hokq]].
      destruct (answer s q) as [r|] eqn:Ea.
      - left. exists i. intros af. unfold Nested.nstep. rewrite E, Ea. discriminate.
      - unfold answer in Ea. rewrite Eq in Ea.
        assert (Hc : live a \/ exists q' p', a = After q' p').
        { destruct a; try discriminate; cbn [live]; auto. right. eauto. }
        destruct Hc as [Hl|[q' [p' ->]]].
        + right. exists q, a. split; [exact Hq|]. split; [congruence|]. auto.
        + destruct (IH q Hq q' p' ltac:(lia) Eq) as [Hc|[j [a' [H1 [H2 [H3 H4]]]]]]; [auto|].
          right. exists j, a'. split; [lia|]. split; [congruence|]. auto.
    Qed.

    Lemma collect_none : forall js, collect s js = None -> exists j, In j js /\ answer s j = None.
    Proof.
      induction js as [|j js IH]; cbn [collect]; [discriminate|].
      destruct (answer s j) as [r|] eqn:E; [|exists j; split; [left; reflexivity|exact E]].
      destruct (collect s js); [discriminate|]. intros _. destruct (IH eq_refl) as [x [H1 H2]].
      exists x. split; [right; exact H1|exact H2].
    Qed.

    Lemma code_progress : forall b,
      (forall j o v a, j < n_next s -> tg G j = Call o v -> below b o -> n_tasks s j = Some a -> live a -> can s) ->
      forall n i a m, n_next s - i <= n -> i < n_next s -> n_tasks s i = Some a -> live a -> tg G i = Code b m -> can s.
    Proof.
      intros b Hcall. induction n as [|n IH]; intros i a m Hn Hi E Hl Ht; [lia|].
      destruct (task i Hi) as [a' [E' Hok]]. rewrite E in E'. injection E' as <-.
      destruct a as [p|q p|q k|js k|o v|o v q|r]; cbn [live] in Hl; try contradiction; cbn [Nested_proofs3.okact] in Hok.
      - exists i. intros af. unfold Nested.nstep. rewrite E. destruct p; discriminate.
      - destruct Hok as [b' [m' [o [v [Ht' [Htq [Hb [Hq _]]]]]]]]. rewrite Ht in Ht'. injection Ht' as <- <-.
        destruct (answer s q) as [r|] eqn:Ea.
        + exists i. intros af. unfold Nested.nstep. rewrite E, Ea. discriminate.
        + destruct (task q ltac:(lia)) as [a [Eq Hokq]]. eapply (Hcall q o v a); try eassumption; [lia|].
          unfold answer in Ea. rewrite Eq in Ea.
          destruct a as [p|q' p|q' k'|js k'|o' v'|o' v' q'|r]; cbn [live]; auto; try discriminate.
          cbn [Nested_proofs3.okact] in Hokq. destruct Hokq as [b' [m' [Ht' _]]]. congruence.
      - destruct Hok as [b' [m' [Ht' [Hjs _]]]]. rewrite Ht in Ht'. injection Ht' as <- <-.
        destruct (collect s js) as [rs|] eqn:Ec.
        + exists i. intros af. unfold Nested.nstep. rewrite E, Ec. discriminate.
        + destruct (collect_none js Ec) as [j [Hin Ea]]. destruct (Hjs j Hin) as [Hj Htj].
          destruct (task j ltac:(lia)) as [a [Ej Hokj]].
          assert (Hc : live a \/ exists q' p', a = After q' p').
          { unfold answer in Ea. rewrite Ej in Ea. destruct a; try discriminate; cbn [live]; auto. right. eauto. }
          destruct Hc as [Hlj|[q' [p' ->]]].
          * eapply (IH j a); try eassumption; lia.
          * destruct (chain j q' p' ltac:(lia) Ej) as [Hc|[x [a' [H1 [H2 [H3 H4]]]]]]; [exact Hc|].
            rewrite Htj in H2. pose proof (ni_loop _ _ _ _ _ _ _ _ _ I x b i ltac:(lia) H2) as Hx.
            eapply (IH x a'); try eassumption; lia.
      - destruct Hok as [Ht' _]. congruence.
      - destruct Hok as [Ht' _]. congruence.
    Qed.

    Lemma call_progress : forall o,
      (forall i a m, i < n_next s -> n_tasks s i = Some a -> live a -> tg G i = Code (Some (h o)) m -> can s) ->
      forall i v a, i < n_next s -> tg G i = Call o v -> n_tasks s i = Some a -> live a -> can s.
    Proof.
      intros o Hcode i v a Hi Ht E Hl.
      destruct (task i Hi) as [a' [E' Hok]]. rewrite E in E'. injection E' as <-.
      assert (Hin : inside i v (n_objs s o)).
      { destruct a as [p|q p|q k|js k|o' v'|o' v' q|r]; cbn [live] in Hl; try contradiction; cbn [Nested_proofs3.okact] in Hok.
        - destruct Hok as [b [m [Ht' _]]]. congruence.
        - destruct Hok as [b [m [x [y [Ht' _]]]]]. congruence.
        - destruct Hok as [b [m [Ht' _]]]. congruence.
        - destruct Hok as [Ht' [_ [Hi' _]]]. rewrite Ht in Ht'. injection Ht' as <- <-. exact Hi'.
        - destruct Hok as [Ht' [_ [Hi' _]]]. rewrite Ht in Ht'. injection Ht' as <- <-. exact Hi'. }
      destruct (OI_progress kdec key isnan dflt active is_value ctor f o _ _ i v (ni_obj _ _ _ _ _ _ _ _ _ I o) Hi Hin) as [j [Hj Hw]].
      assert (Hno : ~ outside j (n_objs s o)).
      { intros Ho. assert (Hwo : exists x, where_ j (n_objs s o) = Outside x).
        { destruct (n_objs s o) as [t|t]; cbn [outside where_] in *; rewrite Ho; eauto. }
        destruct Hwo as [x Hx]. rewrite Hx in Hw. destruct Hw as [Hw|[Hw _]]; discriminate. }
      destruct (ni_out _ _ _ _ _ _ _ _ _ I o j) as [Ho|[v' [Ej|[q Ej]]]]; [contradiction| |].
      - exists j. intros af. unfold Nested.nstep. rewrite Ej. destruct Hw as [-> |[-> Hm]]; [discriminate|].
        specialize (Hm dflt). destruct (move j o dflt (n_objs s o)); [discriminate|congruence].
      - destruct (task j Hj) as [a' [E' Hokj]]. rewrite Ej in E'. injection E' as <-.
        destruct Hokj as [_ [_ [_ [_ [Hwj [Hq [Htq _]]]]]]].
        destruct (answer s q) as [r|] eqn:Ea.
        + exists j. intros af. unfold Nested.nstep. rewrite Ej, Ea.
          pose proof (calc_moves kdec key isnan dflt active o j r _ Hwj) as Hm.
          destruct (move j o r (n_objs s o)); [discriminate|congruence].
        + destruct (task q ltac:(lia)) as [a' [Eq Hokq]]. eapply (Hcode q a'); try eassumption; [lia|].
          unfold answer in Ea. rewrite Eq in Ea. destruct a'; cbn [live]; auto; try discriminate.
          cbn [Nested_proofs3.okact] in Hokq. destruct Hokq as [b [m [Ht' _]]]. congruence.
    Qed.

    Lemma calls_progress : forall n o, h o < n ->
      forall i v a, i < n_next s -> tg G i = Call o v -> n_tasks s i = Some a -> live a -> can s.
    Proof.
      induction n as [|n IH]; intros o Ho; [lia|].
      apply call_progress. intros i a m Hi E Hl Ht.
      eapply (code_progress (Some (h o))); [|apply le_n|exact Hi|exact E|exact Hl|exact Ht].
      intros j o' v' a' Hj Ht' Hb E' Hl'. cbn [Nested_proofs3.below] in Hb. eapply (IH o' ltac:(lia)); eassumption.
    Qed.

    Lemma all_progress : forall i a, n_tasks s i = Some a -> (forall r, a <> Fin r) -> can s.
    Proof.
      intros i a E Hnf.
      assert (Hi : i < n_next s).
      { destruct (Nat.lt_ge_cases i (n_next s)) as [Hlt|Hge]; [exact Hlt|].
        rewrite (ni_none _ _ _ _ _ _ _ _ _ I i Hge) in E. discriminate. }
      assert (Hlive : forall j a', j < n_next s -> n_tasks s j = Some a' -> live a' -> can s).
      { intros j a' Hj E' Hl. destruct (tg G j) as [b m|o v] eqn:Ht.
        - eapply (code_progress b); [|apply le_n|exact Hj|exact E'|exact Hl|exact Ht].
          intros x o' v' a'' Hx Ht' _ E'' Hl'. eapply (calls_progress (S (h o')) o'); try eassumption. lia.
        - eapply (calls_progress (S (h o)) o); try eassumption. lia. }
      destruct a as [p|q p|q k|js k|o v|o v q|r];
        try (eapply Hlive; [exact Hi|exact E|exact Logic.I]).
      - destruct (chain i q p Hi E) as [Hc|[j [a' [H1 [_ [H3 H4]]]]]]; [exact Hc|].
        eapply (Hlive j); [lia|exact H3|exact H4].
      - exfalso. eapply Hnf. reflexivity.
    Qed.
  End Dead.

  Theorem no_deadlock : forall ps s, nexec (ninit ps) s ->
    (forall i a, n_tasks s i = Some a -> exists r, finished s i r) \/ exists i, forall af, nstep i af s <> None.
  Proof.
    intros ps s H. destruct (NI_exec ps s H) as [G [I _]].
    assert (Hdec : (exists i a, n_tasks s i = Some a /\ forall r, a <> Fin r) \/
                   forall i, i < n_next s -> exists r, n_tasks s i = Some (Fin r)).
    { assert (Hn : forall n, n <= n_next s -> (exists i a, n_tasks s i = Some a /\ forall r, a <> Fin r) \/
                   forall i, i < n -> exists r, n_tasks s i = Some (Fin r)).
      { induction n as [|n IH]; intros Hn; [right; intros; lia|].
        destruct (IH ltac:(lia)) as [Hx|Hx]; [auto|].
        destruct (task G s I n ltac:(lia)) as [a [E _]].
        assert (Hc : (exists r, a = Fin r) \/ forall r, a <> Fin r).
        { destruct a; try (right; discriminate). left. eauto. }
        destruct Hc as [[r ->]|Hc]; [|left; eauto].
        right. intros i Hi. destruct (Nat.eq_dec i n) as [->|Hne]; [eauto|]. apply Hx. lia. }
      apply Hn. lia. }
    destruct Hdec as [[i [a [E Hnf]]]|Hall].
    - right. apply (all_progress G s I i a E Hnf).
    - left. intros i a E. destruct (Nat.lt_ge_cases i (n_next s)) as [Hlt|Hge].
      + apply Hall. exact Hlt.
      + rewrite (ni_none _ _ _ _ _ _ _ _ _ I i Hge) in E. discriminate.
  Qed.

  Theorem ends_right : forall ps s, nexec (ninit ps) s -> (forall i af, nstep i af s = None) ->
    forall i p, nth_error ps i = Some p -> exists r, finished s i r /\ means body p r.
  Proof.
    intros ps s H Hst i p Ep. destruct (no_deadlock ps s H) as [Hall|[e He]].
    - assert (Hi : exists a, n_tasks s i = Some a).
      { destruct (NI_exec ps s H) as [G [I [_ L]]].
        assert (i < length ps) by (apply nth_error_Some; congruence).
        destruct (task G s I i ltac:(lia)) as [a [E _]]. eauto. }
      destruct Hi as [a E]. destruct (Hall i a E) as [r Hr]. exists r. split; [exact Hr|].
      eapply right_answers; eassumption.
    - exfalso. apply (He (fun _ => None)). apply Hst.
  Qed.
End P.
