(** * Many caches: the invariant *)
From Coq Require Import List Bool Arith Lia.
From Verif Require Import Cache Cache_proofs CVal Nested Nested_spec Nested_proofs Nested_proofs2.
Import ListNotations.

Section P.
  Context {O V K T : Type}.
  Variable odec : forall x y : O, {x = y} + {x <> y}.
  Variable kdec : forall x y : K, {x = y} + {x <> y}.
  Variable key : V -> K.
  Variable isnan : V -> bool.
  Variable dflt : T.
  Variable active : O -> bool.
  Variable is_value : O -> bool.
  Variable ctor : O -> nat.
  Variable body : O -> V -> @prog O V T.
  Variable uses : O -> O -> Prop.
  Variable h : O -> nat.
  Hypothesis Hf : follows body uses.
  Hypothesis Hh : forall o o', uses o o' -> h o' < h o.
  Hypothesis Hs : same_entry body key is_value.

  Notation prog := (@prog O V T).
  Notation act := (@act O V T).
  Notation nstate := (@nstate O V K T).
  Notation ostate := (@ostate V K T).
  Notation f := (@fn O V T body h dflt).
  Notation c := (@cs O V T body h dflt).
  Notation nstep := (@nstep O V K T odec kdec key isnan dflt active body).
  Notation move := (@move O V K T kdec key isnan dflt active).
  Notation OI := (@OI O V K T kdec key is_value ctor f).

  Lemma f_same : forall o v v', is_value o = true \/ key v = key v' -> f o v = f o v'.
  Proof.
    intros o v v' H. eapply means_unique; [|apply (means_fn body uses h dflt Hf Hh)].
    apply (Hs o v v' H). apply (means_fn body uses h dflt Hf Hh).
  Qed.

  (** What a task is for: a piece of code that asks caches below a height (and of which
      region it is a part), or a call. *)
  Inductive tag : Type := Code (b : option nat) (m : option nat) | Call (o : O) (v : V).
  Record ghost : Type := mkG { res : nat -> T; tg : nat -> tag }.

  Definition below (b : option nat) (o : O) : Prop :=
    match b with Some n => h o < n | None => True end.

  Definition okact (G : ghost) (objs : O -> ostate) (N : nat) (i : nat) (a : act) : Prop :=
    match a with
    | Run p => exists b m, tg G i = Code b m /\ asks_only (below b) p /\ eval f p = res G i
    | After q p => exists b m, tg G i = Code b (Some m) /\ asks_only (below b) p /\ eval f p = res G i /\
        q < i /\ tg G q = Code b (Some m)
    | WaitOne j k => exists b m o v, tg G i = Code b m /\ tg G j = Call o v /\ below b o /\ i < j < N /\
        res G j = f o v /\ eval f (k (f o v)) = res G i /\ forall a, asks_only (below b) (k a)
    | WaitAll js k => exists b m, tg G i = Code b m /\
        (forall j, In j js -> i < j < N /\ tg G j = Code b (Some i)) /\
        eval f (k (map (res G) js)) = res G i /\ forall rs, asks_only (below b) (k rs)
    | Inside o v => tg G i = Call o v /\ res G i = f o v /\ inside i v (objs o) /\ nolog i (objs o)
    | Calc o v j => tg G i = Call o v /\ res G i = f o v /\ inside i v (objs o) /\ nolog i (objs o) /\
        where_ i (objs o) = AtCalc /\ i < j < N /\ tg G j = Code (Some (h o)) None /\ res G j = f o v
    | Fin r => r = res G i
    end.

  Record NI (G : ghost) (s : nstate) : Prop := mkNI {
    ni_some : forall i, i < n_next s -> exists a, n_tasks s i = Some a /\ okact G (n_objs s) (n_next s) i a;
    ni_none : forall i, n_next s <= i -> n_tasks s i = None;
    ni_out : forall o i, outside i (n_objs s o) \/
               exists v, n_tasks s i = Some (Inside o v) \/ exists j, n_tasks s i = Some (Calc o v j);
    ni_log : forall o i, n_next s <= i -> nolog i (n_objs s o);
    ni_obj : forall o, OI o (n_next s) (n_objs s o);
    ni_loop : forall i b m, i < n_next s -> tg G i = Code b (Some m) -> m < i
  }.

  (** Potential. *)
  Definition wt (G : ghost) (objs : O -> ostate) (i : nat) (a : act) : nat :=
    match a with
    | Run p => cost f c p
    | After _ p => 1 + cost f c p
    | WaitOne j k => 1 + cost f c (k (res G j))
    | WaitAll js k => 1 + cost f c (k (map (res G) js))
    | Inside o v => owork i (objs o) + if oahead i (objs o) then 1 + cost f c (body o v) else 0
    | Calc o v _ => owork i (objs o)
    | Fin _ => 0
    end.
  Definition wto (G : ghost) (s : nstate) (i : nat) : nat :=
    match n_tasks s i with Some a => wt G (n_objs s) i a | None => 0 end.
  Definition pot (G : ghost) (s : nstate) : nat := list_sum (map (wto G s) (seq 0 (n_next s))).

  (** ** What stays *)
  Definition agree (n : nat) (G G' : ghost) : Prop :=
    forall i, i < n -> res G' i = res G i /\ tg G' i = tg G i.

  Lemma okact_kept : forall G G' objs objs' N N' i a, okact G objs N i a -> agree N G G' ->
    N <= N' -> i < N -> (forall o, kept i (objs o) (objs' o)) -> okact G' objs' N' i a.
  Proof.
    intros G G' objs objs' N N' i a H A HN Hi Hkp. destruct (A i Hi) as [A1 A2].
    destruct a as [p|q p|j k|js k|o v|o v j|r]; cbn [okact] in *.
    - rewrite A1, A2. exact H.
    - destruct H as [b [m [H1 [H2 [H3 [H4 H5]]]]]]. exists b, m. rewrite A1, A2.
      destruct (A q ltac:(lia)) as [_ ->]. auto 10.
    - destruct H as [b [m [o [v [H1 [H2 [H3 [H4 [H5 [H6 H7]]]]]]]]]]. exists b, m, o, v.
      destruct (A j ltac:(lia)) as [-> ->]. rewrite A1, A2. repeat (split; [assumption || lia|]). exact H7.
    - destruct H as [b [m [H1 [H2 [H3 H4]]]]]. exists b, m. rewrite A1, A2. split; [exact H1|].
      split; [|split; [|exact H4]].
      + intros j Hj. destruct (H2 j Hj) as [H5 H6]. destruct (A j ltac:(lia)) as [_ ->]. split; [lia|exact H6].
      + rewrite <- H3. f_equal. f_equal. apply map_ext_in. intros j Hj. apply A. destruct (H2 j Hj). lia.
    - destruct H as [H1 [H2 [H3 H4]]]. rewrite A1, A2. repeat (split; [assumption|]).
      split; [eapply kept_inside; eauto|eapply kept_nolog; eauto].
    - destruct H as [H1 [H2 [H3 [H4 [H5 [H6 [H7 H8]]]]]]]. rewrite A1, A2. repeat (split; [assumption|]).
      destruct (A j ltac:(lia)) as [-> ->].
      split; [eapply kept_inside; eauto|]. split; [eapply kept_nolog; eauto|].
      split; [rewrite (kept_where _ _ _ (Hkp o)); exact H5|]. split; [lia|]. auto.
    - congruence.
  Qed.

  Lemma wt_kept : forall G G' objs objs' N i a, okact G objs N i a -> agree N G G' ->
    (forall o, kept i (objs o) (objs' o)) -> wt G' objs' i a = wt G objs i a.
  Proof.
    intros G G' objs objs' N i a H A Hkp.
    destruct a as [p|q p|j k|js k|o v|o v j|r]; cbn [okact wt] in *; try reflexivity.
    - destruct H as [b [m [o [v [_ [_ [_ [Hj _]]]]]]]]. destruct (A j ltac:(lia)) as [-> _]. reflexivity.
    - destruct H as [b [m [_ [H2 _]]]]. f_equal. f_equal. f_equal. apply map_ext_in. intros j Hj. apply A.
      destruct (H2 j Hj). lia.
    - destruct (kept_work _ _ _ (Hkp o)) as [-> ->]. reflexivity.
    - destruct (kept_work _ _ _ (Hkp o)) as [-> _]. reflexivity.
  Qed.

  Lemma kept_refl : forall i (os : ostate), kept i os os.
  Proof. intros i [s|s]; reflexivity. Qed.

  Lemma sum_upd : forall (w w' : nat -> nat) i n, i < n -> (forall x, x < n -> x <> i -> w' x = w x) ->
    list_sum (map w' (seq 0 n)) + w i = list_sum (map w (seq 0 n)) + w' i.
  Proof.
    intros w w' i n Hi H.
    assert (G : forall a m, (forall x, a <= x < a + m -> x <> i -> w' x = w x) ->
      list_sum (map w' (seq a m)) + (if (a <=? i) && (i <? a + m) then w i else 0) =
      list_sum (map w (seq a m)) + (if (a <=? i) && (i <? a + m) then w' i else 0)).
    { intros a m. revert a. induction m as [|m IH]; intros a Hx.
      - destruct (Nat.leb_spec a i); destruct (Nat.ltb_spec i (a + 0)); cbn [andb]; cbn; lia.
      - specialize (IH (S a) ltac:(intros; apply Hx; lia)).
        change (list_sum (map w' (seq a (S m)))) with (w' a + list_sum (map w' (seq (S a) m))).
        change (list_sum (map w (seq a (S m)))) with (w a + list_sum (map w (seq (S a) m))).
        destruct (Nat.eq_dec a i) as [->|Ha].
        + destruct (Nat.leb_spec i i); destruct (Nat.ltb_spec i (i + S m)); destruct (Nat.leb_spec (S i) i);
            cbn [andb] in *; lia.
        + rewrite (Hx a) by lia.
          destruct (Nat.leb_spec a i); destruct (Nat.ltb_spec i (a + S m)); destruct (Nat.leb_spec (S a) i);
            destruct (Nat.ltb_spec i (S a + m)); cbn [andb] in *; lia. }
    specialize (G 0 n ltac:(intros; apply H; lia)). cbn [Nat.leb andb] in G.
    destruct (Nat.ltb_spec i (0 + n)); [exact G|lia].
  Qed.

  (** ** The general step: task [i] goes on as [a], tasks in [l] are new. *)
  Definition ext (N : nat) (G : ghost) (l : list (T * tag)) : ghost :=
    mkG (fun x => if x <? N then res G x else match nth_error l (x - N) with Some (r, _) => r | None => dflt end)
        (fun x => if x <? N then tg G x else match nth_error l (x - N) with Some (_, t) => t | None => Code None None end).

  Lemma ext_agree : forall N G l, agree N G (ext N G l).
  Proof.
    intros N G l i Hi. cbn [ext res tg]. apply Nat.ltb_lt in Hi. rewrite Hi. split; reflexivity.
  Qed.

  Lemma ext_new : forall N G l x r t, nth_error l x = Some (r, t) ->
    res (ext N G l) (N + x) = r /\ tg (ext N G l) (N + x) = t.
  Proof.
    intros N G l x r t H. cbn [ext res tg]. replace (N + x <? N) with false by (symmetry; apply Nat.ltb_ge; lia).
    replace (N + x - N) with x by lia. rewrite H. split; reflexivity.
  Qed.

  Lemma general : forall G s s' i a0 a objs' l gl, NI G s -> i < n_next s -> n_tasks s i = Some a0 ->
    let N := n_next s in let N' := N + length l in let G' := ext N G gl in
    n_tasks s' i = Some a -> (forall j, j <> i -> j < N -> n_tasks s' j = n_tasks s j) ->
    (forall x, n_tasks s' (N + x) = nth_error l x) -> n_next s' = N' -> n_objs s' = objs' ->
    length gl = length l ->
    (forall o j, j <> i -> j < N -> kept j (n_objs s o) (objs' o)) ->
    okact G' objs' N' i a ->
    (forall x b, nth_error l x = Some b -> okact G' objs' N' (N + x) b) ->
    (forall o, outside i (objs' o) \/ exists v, a = Inside o v \/ exists j, a = Calc o v j) ->
    (forall o j, N <= j -> outside j (objs' o) \/ exists v, nth_error l (j - N) = Some (Inside o v)) ->
    (forall o j, N' <= j -> nolog j (objs' o)) ->
    (forall o, OI o N' (objs' o)) ->
    (forall x r b m, nth_error gl x = Some (r, Code b (Some m)) -> m < N + x) ->
    list_sum (map (fun x => match nth_error l x with Some b => wt G' objs' (N + x) b | None => 0 end)
                  (seq 0 (length l))) + wt G' objs' i a < wt G (n_objs s) i a0 ->
    NI G' s' /\ pot G' s' < pot G s.
  Proof.
    intros G s s' i a0 a objs' l gl I Hi Ha0 N N' G' Ti Tj Tn En Eo Hlen Hkp Hoka Hokl Houta Houtl Hlog Hobj Hloop Hw.
    assert (HA : agree N G G') by apply ext_agree.
    assert (Hold : forall j, j <> i -> j < N -> exists b, n_tasks s j = Some b /\ n_tasks s' j = Some b /\
               okact G (n_objs s) N j b /\ okact G' objs' N' j b).
    { intros j Hj HN. destruct (ni_some _ _ I j HN) as [b [E Hb]]. exists b. rewrite Tj by assumption.
      split; [exact E|]. split; [exact E|]. split; [exact Hb|]. eapply okact_kept; [exact Hb|exact HA|unfold N'; lia|exact HN|].
      intros o. apply Hkp; assumption. }
    split.
    - constructor; rewrite ?En, ?Eo.
      + intros j Hj. destruct (Nat.lt_ge_cases j N) as [HN|HN].
        * destruct (Nat.eq_dec j i) as [->|Hne]; [exists a; auto|].
          destruct (Hold j Hne HN) as [b [_ [E [_ Hb]]]]. exists b. auto.
        * destruct (nth_error l (j - N)) as [b|] eqn:E.
          -- exists b. replace j with (N + (j - N)) by lia. rewrite Tn. split; [exact E|]. apply Hokl. exact E.
          -- apply nth_error_None in E. unfold N' in Hj. lia.
      + intros j Hj. replace j with (N + (j - N)) by (unfold N' in Hj; lia). rewrite Tn. apply nth_error_None.
        unfold N' in Hj. lia.
      + intros o j. destruct (Nat.eq_dec j i) as [->|Hne].
        { rewrite Ti. destruct (Houta o) as [Ho|[v [->|[x ->]]]]; [auto|right; exists v; auto|right; exists v; eauto]. }
        destruct (Nat.lt_ge_cases j N) as [HN|HN].
        * rewrite Tj by assumption. destruct (ni_out _ _ I o j) as [Ho|Ho]; [left|right; exact Ho].
          eapply kept_outside; [apply Hkp; assumption|exact Ho].
        * destruct (Houtl o j HN) as [Ho|[v E]]; [auto|]. right. exists v. left.
          replace j with (N + (j - N)) by lia. rewrite Tn. exact E.
      + exact Hlog.
      + exact Hobj.
      + intros j b m Hj Et. destruct (Nat.lt_ge_cases j N) as [HN|HN].
        * destruct (HA j HN) as [_ E2]. rewrite E2 in Et. exact (ni_loop _ _ I j b m HN Et).
        * destruct (nth_error gl (j - N)) as [[r t]|] eqn:E.
          -- destruct (ext_new N G gl (j - N) r t E) as [_ E2].
             replace (N + (j - N)) with j in E2 by lia. unfold G' in Et. rewrite E2 in Et. subst t.
             specialize (Hloop _ _ _ _ E). lia.
          -- apply nth_error_None in E. unfold N' in Hj. lia.
    - unfold pot. rewrite En. unfold N'. rewrite seq_app, map_app, list_sum_app.
      assert (E1 : list_sum (map (wto G' s') (seq 0 N)) + wto G s i = list_sum (map (wto G s) (seq 0 N)) + wto G' s' i).
      { apply sum_upd; [exact Hi|]. intros x Hx Hne. unfold wto.
        destruct (Hold x Hne Hx) as [b [E [E' [Hb _]]]]. rewrite E, E', Eo.
        eapply wt_kept; [exact Hb|exact HA|]. intros o. apply Hkp; assumption. }
      assert (E2 : list_sum (map (wto G' s') (seq (0 + N) (length l))) =
        list_sum (map (fun x => match nth_error l x with Some b => wt G' objs' (N + x) b | None => 0 end)
                  (seq 0 (length l)))).
      { f_equal. rewrite <- (Nat.add_0_r (0 + N)). cbn [Nat.add].
        assert (E : forall m b, map (wto G' s') (seq (N + b) m) =
          map (fun x => match nth_error l x with Some b => wt G' objs' (N + x) b | None => 0 end) (seq b m)).
        { induction m as [|m IH]; intros b; cbn [seq map]; [reflexivity|]. f_equal.
          - unfold wto. rewrite Tn, Eo. reflexivity.
          - replace (S (N + b)) with (N + S b) by lia. apply IH. }
        apply E. }
      assert (W1 : wto G s i = wt G (n_objs s) i a0) by (unfold wto; rewrite Ha0; reflexivity).
      assert (W2 : wto G' s' i = wt G' objs' i a) by (unfold wto; rewrite Ti, Eo; reflexivity).
      rewrite E2. rewrite W1, W2 in E1. fold N in E1 |- *. lia.
  Qed.

  (** The instances: nothing new. *)
  Lemma general0 : forall G s s' i a0 a objs', NI G s -> i < n_next s -> n_tasks s i = Some a0 ->
    n_tasks s' i = Some a -> (forall j, j <> i -> n_tasks s' j = n_tasks s j) ->
    n_next s' = n_next s -> n_objs s' = objs' ->
    (forall o j, j <> i -> kept j (n_objs s o) (objs' o)) ->
    okact G objs' (n_next s) i a ->
    (forall o, outside i (objs' o) \/ exists v, a = Inside o v \/ exists j, a = Calc o v j) ->
    (forall o, OI o (n_next s) (objs' o)) ->
    wt G objs' i a < wt G (n_objs s) i a0 ->
    exists G', agree (n_next s) G G' /\ NI G' s' /\ pot G' s' < pot G s.
  Proof.
    intros G s s' i a0 a objs' I Hi Ha0 Ti Tj En Eo Hkp Hok Hout Hobj Hw.
    exists (ext (n_next s) G []). split; [apply ext_agree|].
    assert (HA : agree (n_next s) G (ext (n_next s) G [])) by apply ext_agree.
    assert (Hok' : okact (ext (n_next s) G []) objs' (n_next s) i a).
    { eapply okact_kept; [exact Hok|exact HA|lia|exact Hi|]. intros o. apply kept_refl. }
    eapply (general G s s' i a0 a objs' [] []); try eassumption; cbn [length list_sum seq map fold_right Nat.add];
      rewrite ?Nat.add_0_r; auto.
    - intros x. rewrite Tj by lia. rewrite (ni_none _ _ I) by lia. destruct x; reflexivity.
    - intros x b E. destruct x; discriminate.
    - intros o j Hj. left. eapply kept_outside; [apply Hkp; lia|].
      destruct (ni_out _ _ I o j) as [H|[v [H|[q H]]]]; [exact H| |]; rewrite (ni_none _ _ I j Hj) in H; discriminate.
    - intros o j Hj. eapply kept_nolog; [apply Hkp; lia|]. apply (ni_log _ _ I). exact Hj.
    - intros x r b m E. destruct x; discriminate.
    - rewrite (wt_kept G _ objs' objs' (n_next s) i a Hok HA) by (intros; apply kept_refl). lia.
  Qed.

  (** New tasks in no cache. *)
  Lemma general1 : forall G s i a0 a l gl, NI G s -> i < n_next s -> n_tasks s i = Some a0 ->
    let N := n_next s in let N' := N + length l in let G' := ext N G gl in
    length gl = length l ->
    okact G' (n_objs s) N' i a ->
    (forall x b, nth_error l x = Some b -> okact G' (n_objs s) N' (N + x) b) ->
    (forall o, outside i (n_objs s o) \/ exists v, a = Inside o v \/ exists j, a = Calc o v j) ->
    (forall x r b m, nth_error gl x = Some (r, Code b (Some m)) -> m < N + x) ->
    list_sum (map (fun x => match nth_error l x with Some b => wt G' (n_objs s) (N + x) b | None => 0 end)
                  (seq 0 (length l))) + wt G' (n_objs s) i a < wt G (n_objs s) i a0 ->
    exists G'', agree N G G'' /\ NI G'' (put i a (new l s)) /\ pot G'' (put i a (new l s)) < pot G s.
  Proof.
    intros G s i a0 a l gl I Hi Ha0 N N' G' Hlen Hok Hokl Hout Hloop Hw.
    exists G'. split; [apply ext_agree|].
    eapply (general G s _ i a0 a (n_objs s) l gl); try eassumption; cbn [put new n_tasks n_next n_objs].
    - apply upd_same.
    - intros j Hj HN. rewrite upd_other by exact Hj. apply Nat.ltb_lt in HN. rewrite HN. reflexivity.
    - intros x. fold N. rewrite upd_other by (unfold N; lia).
      replace (N + x <? N) with false by (symmetry; apply Nat.ltb_ge; lia). f_equal. lia.
    - reflexivity.
    - reflexivity.
    - intros. apply kept_refl.
    - intros o j Hj. left.
      destruct (ni_out _ _ I o j) as [H|[v [H|[q H]]]]; [exact H| |]; rewrite (ni_none _ _ I j Hj) in H; discriminate.
    - intros o j Hj. apply (ni_log _ _ I). lia.
    - intros o. eapply OI_more; [|apply (ni_obj _ _ I)]. lia.
  Qed.
End P.
