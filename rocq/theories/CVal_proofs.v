(** * Cached values: invariants *)
From Coq Require Import List Bool Arith Lia.
From Verif Require Import Cache Cache_proofs CVal.
Import ListNotations.

Section P.
  Context {T W : Type}.
  Variable func : W -> option T.
  Variable dflt : T.
  Variable ctor n : nat.

  Notation vlabel := (@vlabel T).
  Notation vstate := (@vstate T W).
  Notation vstep := (vstep func n).
  Notation vexec := (vexec func n).

  Definition vat (s : vstate) (j : nat) : option vlabel := vt_at (c_ths s j).

  Definition vcrit (l : vlabel) : bool :=
    match l with L0 | LW1 | LW2 | LW3 | LC2 | LC2b | LC3 _ => false | _ => true end.
  Definition working (l : vlabel) : bool :=
    match l with LC1 | LC2 | LC2b | LC3 _ | LC4 _ | LC5 _ | LC6 | LC7 => true | _ => false end.
  Definition nov (l : vlabel) : bool :=
    match l with L2 | LC0 | LC1 | LC2 | LC2b | LC3 _ | LC4 _ | LC5 _ | LC6 => true | _ => false end.
  Definition started (l : vlabel) : bool :=
    match l with LC2b | LC3 _ | LC4 _ | LC5 _ | LC6 => true | _ => false end.
  Definition vpre (l : vlabel) : bool := match l with LC1 | LC2 => true | _ => false end.
  Definition waiting (l : vlabel) : bool := match l with LW0 | LW1 => true | _ => false end.
  Definition waited (l : vlabel) : bool := match l with LW2 | LW3 => true | _ => false end.

  Record CInv (s : vstate) : Prop := mkCInv {
    ci_lock : forall j l, j < n -> vat s j = Some l -> vcrit l = true -> c_lock s = Some j;
    ci_lock' : forall j, c_lock s = Some j -> j < n /\ exists l, vat s j = Some l /\ vcrit l = true;
    ci_work : forall j l, j < n -> vat s j = Some l -> working l = true ->
              c_inproc s = true /\ h_dead s = false;
    ci_uniq : forall j j' l l', j < n -> j' < n -> vat s j = Some l -> vat s j' = Some l' ->
              working l = true -> working l' = true -> j = j';
    ci_inproc : c_inproc s = true -> h_dead s = true \/
                exists j l, j < n /\ vat s j = Some l /\ working l = true;
    ci_dead : h_dead s = true -> c_inproc s = true /\ c_valid s = false;
    ci_C0 : forall j, j < n -> vat s j = Some LC0 -> c_inproc s = false;
    ci_nov : forall j l, j < n -> vat s j = Some l -> nov l = true -> c_valid s = false;
    ci_viol : ~ In VVDuplicate (h_viol s) /\ ~ In VVLock (h_viol s);
    ci_once : h_starts s <= 1;
    ci_started : 0 < h_starts s -> c_valid s = true \/ h_dead s = true \/
                 exists j l, j < n /\ vat s j = Some l /\ started l = true;
    ci_pre : forall j l, j < n -> vat s j = Some l -> vpre l = true -> h_starts s = 0;
    ci_wait0 : h_done s = false -> c_wait s = Some ctor;
    ci_wait1 : h_done s = true -> forall j, c_wait s = Some j -> j < n /\ vat s j = Some LW2;
    ci_W : forall j l, j < n -> vat s j = Some l -> waited l = true -> h_done s = true;
    ci_W01 : forall j l, j < n -> vat s j = Some l -> waiting l = true -> h_done s = false ->
             c_inproc s = true \/ exists j', j' < n /\ vat s j' = Some LC8
  }.

  Lemma cinv_init : forall w progs, CInv (vinit dflt ctor w progs).
  Proof.
    intros w progs. constructor; cbn; intros; try discriminate; try lia; auto.
  Qed.

  Lemma vother_not_crit : forall s i j l l', CInv s -> i < n -> j < n -> j <> i ->
    vat s i = Some l -> vcrit l = true -> vat s j = Some l' -> vcrit l' = false.
  Proof.
    intros s i j l l' I Hi Hj Hji E Hc E'. destruct (vcrit l') eqn:Q; [|reflexivity].
    pose proof (ci_lock s I i l Hi E Hc). pose proof (ci_lock s I j l' Hj E' Q). congruence.
  Qed.

  (** What may change while thread [i] moves from [x] to [x']. *)
  Definition vcritx (x : option vlabel) : bool := match x with Some l => vcrit l | None => false end.

  Lemma cinv_build : forall s s' i, CInv s -> i < n ->
    (forall j, j <> i -> vat s' j = vat s j) ->
    (* locks *)
    c_lock s' = (if vcritx (vat s' i) then Some i else if vcritx (vat s i) then None else c_lock s) ->
    (vcritx (vat s' i) = true -> vcritx (vat s i) = false -> c_lock s = None) ->
    (~ In VVDuplicate (h_viol s') /\ ~ In VVLock (h_viol s')) ->
    (* others: in the critical section [i] may change what it likes except as stated *)
    (forall j l, j < n -> j <> i -> vat s j = Some l -> working l = true ->
       c_inproc s' = true /\ h_dead s' = false /\ (forall l', vat s' i = Some l' -> working l' = false)) ->
    (forall j, j < n -> j <> i -> vat s j = Some LC0 -> c_inproc s' = false) ->
    (forall j l, j < n -> j <> i -> vat s j = Some l -> nov l = true -> c_valid s' = false) ->
    (forall j l, j < n -> j <> i -> vat s j = Some l -> vpre l = true -> h_starts s' = 0) ->
    (h_done s = true -> h_done s' = true) ->
    (forall j l, j < n -> j <> i -> vat s j = Some l -> waiting l = true -> h_done s' = false ->
       c_inproc s' = true \/ vat s' i = Some LC8 \/ exists j', j' < n /\ j' <> i /\ vat s j' = Some LC8) ->
    (* [i] itself *)
    (forall l', vat s' i = Some l' ->
       (working l' = true -> c_inproc s' = true /\ h_dead s' = false) /\
       (l' = LC0 -> c_inproc s' = false) /\
       (nov l' = true -> c_valid s' = false) /\
       (vpre l' = true -> h_starts s' = 0) /\
       (waited l' = true -> h_done s' = true) /\
       (waiting l' = true -> h_done s' = false -> c_inproc s' = true \/ exists j', j' < n /\ vat s' j' = Some LC8)) ->
    (c_inproc s' = true -> h_dead s' = true \/ (exists l', vat s' i = Some l' /\ working l' = true) \/
       exists j l, j < n /\ j <> i /\ vat s j = Some l /\ working l = true) ->
    (h_dead s' = true -> c_inproc s' = true /\ c_valid s' = false) ->
    h_starts s' <= 1 ->
    (0 < h_starts s' -> c_valid s' = true \/ h_dead s' = true \/
       (exists l', vat s' i = Some l' /\ started l' = true) \/
       exists j l, j < n /\ j <> i /\ vat s j = Some l /\ started l = true) ->
    (h_done s' = false -> c_wait s' = Some ctor) ->
    (h_done s' = true -> forall j, c_wait s' = Some j ->
       (j = i /\ vat s' i = Some LW2) \/ (j <> i /\ j < n /\ vat s j = Some LW2)) ->
    CInv s'.
  Proof.
    intros s s' i I Hi Ho HL1 HL2 Hv Hw HC0 Hn Hp Hd HW Hself Hin Hdead Hon Hst Hw0 Hw1.
    assert (Hnc : vcritx (vat s' i) = true -> forall j l, j < n -> j <> i ->
                  vat s j = Some l -> vcrit l = false).
    { intros Hx j l Hj Hji E. destruct (vcrit l) eqn:Q'; [|reflexivity].
      pose proof (ci_lock s I j l Hj E Q') as QL.
      destruct (vat s i) as [li|] eqn:Ei; cbn [vcritx] in *.
      - destruct (vcrit li) eqn:Q; [pose proof (ci_lock s I i li Hi Ei Q); congruence|].
        rewrite (HL2 Hx eq_refl) in QL. discriminate.
      - rewrite (HL2 Hx eq_refl) in QL. discriminate. }
    assert (Hcase : forall j l, vat s' j = Some l -> j = i /\ vat s' i = Some l \/ j <> i /\ vat s j = Some l).
    { intros j l E. destruct (Nat.eq_dec j i) as [->|Hji]; [left; auto|right]. rewrite <- (Ho j Hji). auto. }
    constructor.
    - intros j l Hj E Q. destruct (Hcase j l E) as [[-> E']|[Hji E']].
      + rewrite HL1, E'. cbn [vcritx]. rewrite Q. reflexivity.
      + destruct (vcritx (vat s' i)) eqn:Q1.
        { rewrite (Hnc eq_refl j l Hj Hji E') in Q. discriminate. }
        rewrite HL1. destruct (vcritx (vat s i)) eqn:Q2.
        { destruct (vat s i) as [li|] eqn:Ei; [|discriminate].
          rewrite (vother_not_crit s i j li l I Hi Hj Hji Ei Q2 E') in Q. discriminate. }
        exact (ci_lock s I j l Hj E' Q).
    - intros j E. rewrite HL1 in E. destruct (vcritx (vat s' i)) eqn:Q1.
      + injection E as <-. split; [exact Hi|].
        destruct (vat s' i) as [l|]; [|discriminate]. exists l. auto.
      + destruct (vcritx (vat s i)) eqn:Q2; [discriminate|].
        destruct (ci_lock' s I j E) as [Hj [l [E1 E2]]]. split; [exact Hj|].
        exists l. destruct (Nat.eq_dec j i) as [->|Hji].
        * rewrite E1 in Q2. cbn in Q2. congruence.
        * rewrite (Ho j Hji). auto.
    - intros j l Hj E Q. destruct (Hcase j l E) as [[-> E']|[Hji E']].
      + apply (Hself l E'). exact Q.
      + destruct (Hw j l Hj Hji E' Q) as [Q1 [Q2 _]]. auto.
    - intros j j' l l' Hj Hj' E E' Q Q'.
      destruct (Hcase j l E) as [[-> E1]|[Hji E1]]; destruct (Hcase j' l' E') as [[-> E1']|[Hji' E1']]; auto.
      + exfalso. destruct (Hw j' l' Hj' Hji' E1' Q') as [_ [_ Q3]]. rewrite (Q3 l E1) in Q. discriminate.
      + exfalso. destruct (Hw j l Hj Hji E1 Q) as [_ [_ Q3]]. rewrite (Q3 l' E1') in Q'. discriminate.
      + eapply (ci_uniq s I); eassumption.
    - intros Q. destruct (Hin Q) as [Q1|[[l' [E1 Q1]]|[j [l [Hj [Hji [E1 Q1]]]]]]]; auto.
      + right. exists i, l'. auto.
      + right. exists j, l. rewrite (Ho j Hji). auto.
    - exact Hdead.
    - intros j Hj E. destruct (Hcase j _ E) as [[-> E']|[Hji E']].
      + apply (Hself _ E'). reflexivity.
      + eapply HC0; eassumption.
    - intros j l Hj E Q. destruct (Hcase j l E) as [[-> E']|[Hji E']].
      + apply (Hself l E'). exact Q.
      + eapply Hn; eassumption.
    - exact Hv.
    - exact Hon.
    - intros Q. destruct (Hst Q) as [Q1|[Q1|[[l' [E1 Q1]]|[j [l [Hj [Hji [E1 Q1]]]]]]]]; auto.
      + right; right. exists i, l'. auto.
      + right; right. exists j, l. rewrite (Ho j Hji). auto.
    - intros j l Hj E Q. destruct (Hcase j l E) as [[-> E']|[Hji E']].
      + apply (Hself l E'). exact Q.
      + eapply Hp; eassumption.
    - exact Hw0.
    - intros Q j E. destruct (Hw1 Q j E) as [[-> E1]|[Hji [Hj E1]]]; [auto|].
      rewrite (Ho j Hji). auto.
    - intros j l Hj E Q. destruct (Hcase j l E) as [[-> E']|[Hji E']].
      + apply (Hself l E'). exact Q.
      + apply Hd. eapply (ci_W s I); eassumption.
    - intros j l Hj E Q Qd. destruct (Hcase j l E) as [[-> E']|[Hji E']].
      + apply (Hself l E'); assumption.
      + destruct (HW j l Hj Hji E' Q Qd) as [Q1|[Q1|[j' [Hj' [Hji' Q1]]]]]; [auto| |].
        * right. exists i. auto.
        * right. exists j'. rewrite (Ho j' Hji'). auto.
  Qed.

  Lemma vat_goto : forall i l (s : vstate), vat (vgoto i l s) i = Some l.
  Proof. intros. unfold vat, vgoto, vset_th. cbn. rewrite upd_same. reflexivity. Qed.
  Lemma vat_goto' : forall i l (s : vstate) j, j <> i -> vat (vgoto i l s) j = vat s j.
  Proof. intros. unfold vat, vgoto, vset_th. cbn. rewrite upd_other by assumption. reflexivity. Qed.
  Lemma vat_return : forall i r (s : vstate), vat (vreturn i r s) i = None.
  Proof. intros. unfold vat, vreturn, vset_th. cbn. rewrite upd_same. reflexivity. Qed.
  Lemma vat_return' : forall i r (s : vstate) j, j <> i -> vat (vreturn i r s) j = vat s j.
  Proof. intros. unfold vat, vreturn, vset_th. cbn. rewrite upd_other by assumption. reflexivity. Qed.

  (** Steps that change nothing but the lock and the place. *)
  Lemma cinv_move : forall s s' i x, CInv s -> i < n -> 
    (forall j, j <> i -> vat s' j = vat s j) -> vat s' i = x ->
    c_lock s' = (if vcritx x then Some i else if vcritx (vat s i) then None else c_lock s) ->
    (vcritx x = true -> vcritx (vat s i) = false -> c_lock s = None) ->
    h_viol s' = h_viol s -> c_wait s' = c_wait s -> c_inproc s' = c_inproc s -> c_valid s' = c_valid s ->
    h_starts s' = h_starts s -> h_done s' = h_done s -> h_dead s' = h_dead s ->
    (forall l, vat s i = Some l -> working l = true -> exists l', x = Some l' /\ working l' = true) ->
    (forall l, vat s i = Some l -> started l = true -> exists l', x = Some l' /\ started l' = true) ->
    vat s i <> Some LC8 -> vat s i <> Some LW2 ->
    (forall l', x = Some l' ->
       (working l' = true -> exists l, vat s i = Some l /\ working l = true) /\
       (l' = LC0 -> c_inproc s = false) /\
       (nov l' = true -> c_valid s = false) /\
       (vpre l' = true -> h_starts s = 0) /\
       (waited l' = true -> h_done s = true) /\
       (waiting l' = true -> h_done s = false -> c_inproc s = true \/
           exists j', j' < n /\ j' <> i /\ vat s j' = Some LC8)) ->
    CInv s'.
  Proof.
    intros s s' i x I Hi Ho Ex HL1 HL2 E1 E2 E3 E4 E5 E6 E7 Hkeep Hkeeps Hn8 HnW Hself.
    apply (cinv_build s s' i I Hi Ho); rewrite ?E1, ?E2, ?E3, ?E4, ?E5, ?E6, ?E7; rewrite ?Ex.
    - exact HL1.
    - exact HL2.
    - apply (ci_viol s I).
    - intros j l Hj Hji E Q. destruct (ci_work s I j l Hj E Q) as [Q1 Q2]. split; [exact Q1|].
      split; [exact Q2|]. intros l' El. destruct (working l') eqn:Qw; [|reflexivity]. exfalso.
      destruct (proj1 (Hself l' El) Qw) as [li [Ei Qi]]. apply Hji. eapply (ci_uniq s I); eassumption.
    - intros j Hj Hji E. eapply (ci_C0 s I); eassumption.
    - intros j l Hj Hji E Q. eapply (ci_nov s I); eassumption.
    - intros j l Hj Hji E Q. eapply (ci_pre s I); eassumption.
    - auto.
    - intros j l Hj Hji E Q Qd. destruct (ci_W01 s I j l Hj E Q Qd) as [Q1|[j' [Hj' E']]]; [auto|].
      right; right. exists j'. split; [exact Hj'|]. split; [congruence|exact E'].
    - intros l' El. destruct (Hself l' El) as [A1 [A2 [A3 [A4 [A5 A6]]]]].
      split. { intros Q. destruct (A1 Q) as [l [Ei Qi]]. eapply (ci_work s I); eassumption. }
      repeat (split; [assumption|]). intros Q Qd. destruct (A6 Q Qd) as [Q1|[j' [Hj' [Hji E']]]]; [auto|].
      right. exists j'. rewrite (Ho j' Hji). auto.
    - intros Q. destruct (ci_inproc s I Q) as [Q1|[j [l [Hj [E Q1]]]]]; [auto|].
      destruct (Nat.eq_dec j i) as [->|Hji]; [|right; right; exists j, l; auto].
      right; left. eapply Hkeep; eassumption.
    - apply (ci_dead s I).
    - apply (ci_once s I).
    - intros Q. destruct (ci_started s I Q) as [Q1|[Q1|[j [l [Hj [E Q1]]]]]]; auto.
      destruct (Nat.eq_dec j i) as [->|Hji]; [|right; right; right; exists j, l; auto].
      right; right; left. eapply Hkeeps; eassumption.
    - apply (ci_wait0 s I).
    - intros Q j E. right. destruct (ci_wait1 s I Q j E) as [Hj E']. split; [congruence|auto].
  Qed.

  Ltac vbasics Hu :=
    rewrite ?Hu; try reflexivity;
    try (intros ? Hq; rewrite vat_goto' by exact Hq; reflexivity);
    try (apply vat_goto).

  Theorem cinv_step : forall s s' i, CInv s -> i < n -> vstep i s = Some s' -> CInv s'.
  Proof.
    intros s s' i I Hi H. unfold CVal.vstep in H.
    destruct (vt_at (c_ths s i)) as [l|] eqn:E.
    2:{ change (vat s i = None) in E.
      destruct (vt_prog (c_ths s i)) as [|o rest]; [discriminate|]. destruct o; injection H as <-.
      - eapply (cinv_move s _ i (Some L0) I Hi); rewrite ?E; try reflexivity; try discriminate.
        + intros j Hj. unfold vat, vset_th. cbn. rewrite upd_other by exact Hj. reflexivity.
        + unfold vat, vset_th. cbn. rewrite upd_same. reflexivity.
        + intros l' Q. injection Q as <-. repeat split; discriminate.
      - (* Clear *)
        assert (Ho : forall j x, vat (mkV (c_lock s) (c_wait s) (c_inproc s) false (c_value s) (c_world s)
             (upd Nat.eq_dec (c_ths s) i {| vt_prog := rest; vt_at := None; vt_log := vt_log (c_ths s i) |})
             [c_world s] 0 (h_done s) (h_dead s) true (h_overlap s || vbusy s n) (h_viol s)) j = x -> vat s j = x).
        { intros j x Q. unfold vat in *. cbn in Q. destruct (Nat.eq_dec j i) as [->|Hj].
          - rewrite upd_same in Q. cbn in Q. congruence.
          - rewrite upd_other in Q by exact Hj. exact Q. }
        assert (Ho' : forall j x, vat s j = Some x -> vat (mkV (c_lock s) (c_wait s) (c_inproc s) false (c_value s) (c_world s)
             (upd Nat.eq_dec (c_ths s) i {| vt_prog := rest; vt_at := None; vt_log := vt_log (c_ths s i) |})
             [c_world s] 0 (h_done s) (h_dead s) true (h_overlap s || vbusy s n) (h_viol s)) j = Some x).
        { intros j x Q. unfold vat in *. cbn. destruct (Nat.eq_dec j i) as [->|Hj]; [congruence|].
          rewrite upd_other by exact Hj. exact Q. }
        constructor; cbn [c_lock c_wait c_inproc c_valid h_starts h_done h_dead h_viol].
        + intros j l Hj Q. apply (ci_lock s I j l Hj (Ho _ _ Q)).
        + intros j Q. destruct (ci_lock' s I j Q) as [Hj [l [Q1 Q2]]]. split; [exact Hj|]. exists l. auto.
        + intros j l Hj Q. apply (ci_work s I j l Hj (Ho _ _ Q)).
        + intros j j' l l' Hj Hj' Q Q'. apply (ci_uniq s I j j' l l' Hj Hj' (Ho _ _ Q) (Ho _ _ Q')).
        + intros Q. destruct (ci_inproc s I Q) as [Q1|[j [l [Hj [Q1 Q2]]]]]; [auto|].
          right. exists j, l. auto.
        + intros Q. split; [apply (ci_dead s I Q)|reflexivity].
        + intros j Hj Q. apply (ci_C0 s I j Hj (Ho _ _ Q)).
        + reflexivity.
        + apply (ci_viol s I).
        + lia.
        + lia.
        + reflexivity.
        + apply (ci_wait0 s I).
        + intros Q j Q1. destruct (ci_wait1 s I Q j Q1) as [Hj Q2]. auto.
        + intros j l Hj Q. apply (ci_W s I j l Hj (Ho _ _ Q)).
        + intros j l Hj Q Qw Qd. destruct (ci_W01 s I j l Hj (Ho _ _ Q) Qw Qd) as [Q1|[j' [Hj' Q1]]]; [auto|].
          right. exists j'. auto.
      - eapply (cinv_move s _ i None I Hi); rewrite ?E; try reflexivity; try discriminate.
        + intros j Hj. unfold vat. cbn. rewrite upd_other by exact Hj. reflexivity.
        + unfold vat. cbn. rewrite upd_same. reflexivity. }
    change (vat s i = Some l) in E.
    assert (HL : vcrit l = true -> c_lock s = Some i) by (intros Q; eapply (ci_lock s I); eassumption).
    assert (Hul : vcrit l = true -> vunlock i s = vset_lock None s).
    { intros Q. unfold vunlock. rewrite (HL Q). destruct (Nat.eq_dec i i); congruence. }
    pose proof (ci_work s I i l Hi E) as Wk. pose proof (ci_nov s I i l Hi E) as Nv.
    pose proof (ci_pre s I i l Hi E) as Pr. pose proof (ci_W s I i l Hi E) as Wd.
    pose proof (ci_W01 s I i l Hi E) as Wg.
    assert (Wl : vcrit l = true -> forall j l', j < n -> j <> i -> vat s j = Some l' -> vcrit l' = false).
    { intros Q j l' Hj Hji E'. eapply (vother_not_crit s i j); eassumption. }
    assert (Uq : working l = true -> forall j l', j < n -> j <> i -> vat s j = Some l' -> working l' = false).
    { intros Q j l' Hj Hji E'. destruct (working l') eqn:Q'; [|reflexivity]. exfalso. apply Hji.
      eapply (ci_uniq s I); eassumption. }
    destruct l; cbn [vcall_step] in H.
    - (* L0 *) destruct (c_lock s) eqn:Ql; [discriminate|]. injection H as <-.
      eapply (cinv_move s _ i (Some L1) I Hi); rewrite ?E; vbasics E; try discriminate; auto.
      + intros l Q Qw. injection Q as <-. discriminate.
      + intros l Q Qw. injection Q as <-. discriminate.
      + intros l' Q. injection Q as <-. repeat split; discriminate.
    - (* L1 *) injection H as <-.
      eapply (cinv_move s _ i (Some (if c_valid s then LRead else L2)) I Hi); rewrite ?E; vbasics E; try discriminate; auto.
      + cbn [vcritx]. destruct (c_valid s); cbn; apply HL; reflexivity.
      + intros l Q Qw. injection Q as <-. discriminate.
      + intros l Q Qw. injection Q as <-. discriminate.
      + intros l' Q. injection Q as <-. destruct (c_valid s); repeat split; try discriminate; auto.
    - (* L2 *) injection H as <-.
      eapply (cinv_move s _ i (Some (if c_inproc s then LW0 else LC0)) I Hi); rewrite ?E; vbasics E; try discriminate; auto.
      + cbn [vcritx]. destruct (c_inproc s); cbn; apply HL; reflexivity.
      + intros l Q Qw. injection Q as <-. discriminate.
      + intros l Q Qw. injection Q as <-. discriminate.
      + intros l' Q. injection Q as <-. destruct (c_inproc s); repeat split; try discriminate; auto.
    - (* LW0 *) injection H as <-. rewrite Hul by reflexivity.
      eapply (cinv_move s _ i (Some LW1) I Hi); rewrite ?E; vbasics E; try discriminate; auto.
      + intros l Q Qw. injection Q as <-. discriminate.
      + intros l Q Qw. injection Q as <-. discriminate.
      + intros l' Q. injection Q as <-. repeat split; try discriminate.
        intros _ Qd. destruct (Wg eq_refl Qd) as [Q1|[j' [Hj' Q1]]]; [auto|]. right. exists j'.
        split; [exact Hj'|]. split; [congruence|exact Q1].
    - (* LW1 *) destruct (c_wait s) eqn:Qw; [discriminate|]. injection H as <-.
      assert (Hd : h_done s = true).
      { destruct (h_done s) eqn:Q; [reflexivity|]. rewrite (ci_wait0 s I Q) in Qw. discriminate. }
      eapply (cinv_build s _ i I Hi); rewrite ?vat_goto, ?E; cbn; try reflexivity; try discriminate; auto.
      + intros j Hj. rewrite vat_goto' by exact Hj. reflexivity.
      + apply (ci_viol s I).
      + intros j l Hj Hji E' Q. destruct (ci_work s I j l Hj E' Q) as [Q1 Q2]. repeat split; auto.
        intros l' Q'. injection Q' as <-. reflexivity.
      + intros j Hj Hji E'. eapply (ci_C0 s I); eassumption.
      + intros j l Hj Hji E' Q. eapply (ci_nov s I); eassumption.
      + intros j l Hj Hji E' Q. eapply (ci_pre s I); eassumption.
      + intros j l Hj Hji E' Q Qd. congruence.
      + intros l' Q. injection Q as <-. repeat split; try discriminate; auto.
      + intros Q. destruct (ci_inproc s I Q) as [Q1|[j [l [Hj [E' Q1]]]]]; [auto|].
        right; right. exists j, l. repeat split; auto. intros ->. rewrite E in E'. injection E' as <-. discriminate.
      + apply (ci_dead s I).
      + apply (ci_once s I).
      + intros Q. destruct (ci_started s I Q) as [Q1|[Q1|[j [l [Hj [E' Q1]]]]]]; auto.
        right; right; right. exists j, l. repeat split; auto. intros ->. rewrite E in E'. injection E' as <-. discriminate.
      + congruence.
      + intros _ j Q. injection Q as <-. auto.
    - (* LW2 *) injection H as <-. specialize (Wd eq_refl).
      assert (Hv : c_lock (vunwait i s) = c_lock s /\ c_inproc (vunwait i s) = c_inproc s /\
                   c_valid (vunwait i s) = c_valid s /\ h_dead (vunwait i s) = h_dead s /\
                   h_done (vunwait i s) = h_done s /\ h_starts (vunwait i s) = h_starts s /\
                   c_wait (vunwait i s) = None /\ c_ths (vunwait i s) = c_ths s /\
                   (~ In VVDuplicate (h_viol (vunwait i s)) /\ ~ In VVLock (h_viol (vunwait i s)))).
      { pose proof (ci_viol s I) as [V1 V2].
        unfold vunwait. destruct (c_wait s) as [j|] eqn:Qw; [destruct (Nat.eq_dec j i)|];
          cbn; repeat split; auto; intros [Q|Q]; try discriminate; auto. }
      destruct Hv as [X1 [X2 [X3 [X4 [X5 [X6 [X7 [X8 X9]]]]]]]].
      eapply (cinv_build s _ i I Hi); rewrite ?vat_goto, ?E; cbn; rewrite ?X1, ?X2, ?X3, ?X4, ?X5, ?X6, ?X7;
        try reflexivity; try discriminate; auto.
      + intros j Hj. rewrite vat_goto' by exact Hj. unfold vat. rewrite X8. reflexivity.
      + intros j l Hj Hji E' Q. destruct (ci_work s I j l Hj E' Q) as [Q1 Q2]. repeat split; auto.
        intros l' Q'. injection Q' as <-. reflexivity.
      + intros j Hj Hji E'. eapply (ci_C0 s I); eassumption.
      + intros j l Hj Hji E' Q. eapply (ci_nov s I); eassumption.
      + intros j l Hj Hji E' Q. eapply (ci_pre s I); eassumption.
      + intros j l Hj Hji E' Q Qd. congruence.
      + intros l' Q. injection Q as <-. repeat split; try discriminate; auto.
      + intros Q. destruct (ci_inproc s I Q) as [Q1|[j [l [Hj [E' Q1]]]]]; [auto|].
        right; right. exists j, l. repeat split; auto. intros ->. rewrite E in E'. injection E' as <-. discriminate.
      + apply (ci_dead s I).
      + apply (ci_once s I).
      + intros Q. destruct (ci_started s I Q) as [Q1|[Q1|[j [l [Hj [E' Q1]]]]]]; auto.
        right; right; right. exists j, l. repeat split; auto. intros ->. rewrite E in E'. injection E' as <-. discriminate.
      + congruence.
    - (* LW3 *) destruct (c_lock s) eqn:Ql; [discriminate|]. injection H as <-.
      eapply (cinv_move s _ i (Some LRead) I Hi); rewrite ?E; vbasics E; try discriminate; auto.
      + intros l Q Qw. injection Q as <-. discriminate.
      + intros l Q Qw. injection Q as <-. discriminate.
      + intros l' Q. injection Q as <-. repeat split; discriminate.
    - (* LC0 *) injection H as <-. pose proof (ci_C0 s I i Hi E) as Hno.
      assert (Hdf : h_dead s = false).
      { destruct (h_dead s) eqn:Q; [|reflexivity]. destruct (ci_dead s I Q). congruence. }
      assert (Hnw : forall j l, j < n -> vat s j = Some l -> working l = false).
      { intros j l Hj E'. destruct (working l) eqn:Q; [|reflexivity].
        destruct (ci_work s I j l Hj E' Q). congruence. }
      eapply (cinv_build s _ i I Hi); rewrite ?vat_goto, ?E; cbn; try reflexivity; try discriminate; auto.
      + intros j Hj. rewrite vat_goto' by exact Hj. reflexivity.
      + apply (ci_viol s I).
      + intros j l Hj Hji E' Q. rewrite (Hnw j l Hj E') in Q. discriminate.
      + intros j Hj Hji E'. pose proof (Wl eq_refl j _ Hj Hji E'). discriminate.
      + intros j l Hj Hji E' Q. eapply (ci_pre s I); eassumption.
      + intros l' Q. injection Q as <-. repeat split; try discriminate; auto.
        intros _. destruct (h_starts s) eqn:Qs; [reflexivity|]. exfalso.
        destruct (ci_started s I) as [Q1|[Q1|[j [l [Hj [E' Q1]]]]]]; [lia| | |].
        * rewrite (Nv eq_refl) in Q1. discriminate.
        * congruence.
        * pose proof (Hnw j l Hj E'). destruct l; discriminate.
      + intros _. right; left. eauto.
      + apply (ci_once s I).
      + intros Q. destruct (ci_started s I Q) as [Q1|[Q1|[j [l [Hj [E' Q1]]]]]]; auto.
        right; right; right. exists j, l. repeat split; auto. intros ->. rewrite E in E'. injection E' as <-. discriminate.
      + apply (ci_wait0 s I).
      + intros Q j Q1. right. destruct (ci_wait1 s I Q j Q1). split; [congruence|auto].
    - (* LC1 *) injection H as <-. rewrite Hul by reflexivity.
      eapply (cinv_move s _ i (Some LC2) I Hi); rewrite ?E; vbasics E; try discriminate; auto.
      + intros l Q Qw. eauto.
      + intros l Q Qw. injection Q as <-. discriminate.
      + intros l' Q. injection Q as <-. repeat split; try discriminate; eauto.
    - (* LC2 *) injection H as <-. specialize (Pr eq_refl). destruct (Wk eq_refl) as [Wk1 Wk2].
      eapply (cinv_build s _ i I Hi); rewrite ?vat_goto, ?E; cbn; try reflexivity; try discriminate; auto.
      + intros j Hj. rewrite vat_goto' by exact Hj. reflexivity.
      + apply (ci_viol s I).
      + intros j l Hj Hji E' Q. rewrite (Uq eq_refl j l Hj Hji E') in Q. discriminate.
      + intros j Hj Hji E'. eapply (ci_C0 s I); eassumption.
      + intros j l Hj Hji E' Q. pose proof (Uq eq_refl j l Hj Hji E'). destruct l; discriminate.
      + intros l' Q. injection Q as <-. repeat split; try discriminate; auto.
      + intros _. right; left. eauto.
      + lia.
      + intros _. right; right; left. eauto.
      + apply (ci_wait0 s I).
      + intros Q j Q1. right. destruct (ci_wait1 s I Q j Q1). split; [congruence|auto].
    - (* LC2b *) destruct (Wk eq_refl) as [Wk1 Wk2]. destruct (func (c_world s)) as [r|]; injection H as <-.
      + eapply (cinv_move s _ i (Some (LC3 r)) I Hi); rewrite ?E; vbasics E; try discriminate; auto.
        * intros l Q Qw. eauto.
        * intros l Q Qw. eauto.
        * intros l' Q. injection Q as <-. repeat split; try discriminate; eauto.
      + eapply (cinv_build s _ i I Hi); rewrite ?vat_return, ?E; cbn; try reflexivity; try discriminate; auto.
        * intros j Hj. rewrite vat_return' by exact Hj. reflexivity.
        * apply (ci_viol s I).
        * intros j l Hj Hji E' Q. rewrite (Uq eq_refl j l Hj Hji E') in Q. discriminate.
        * intros j Hj Hji E'. eapply (ci_C0 s I); eassumption.
        * intros j l Hj Hji E' Q. eapply (ci_pre s I); eassumption.
        * apply (ci_once s I).
        * apply (ci_wait0 s I).
        * intros Q j Q1. right. destruct (ci_wait1 s I Q j Q1). split; [congruence|auto].
    - (* LC3 *) destruct (c_lock s) eqn:Ql; [discriminate|]. injection H as <-.
      eapply (cinv_move s _ i (Some (LC4 r)) I Hi); rewrite ?E; vbasics E; try discriminate; auto.
      + intros l Q Qw. eauto.
      + intros l Q Qw. eauto.
      + intros l' Q. injection Q as <-. repeat split; try discriminate; eauto.
    - (* LC4 *) rewrite (Nv eq_refl) in H. injection H as <-.
      eapply (cinv_move s _ i (Some (LC5 r)) I Hi); rewrite ?E; vbasics E; try discriminate; auto.
      + intros l Q Qw. eauto.
      + intros l Q Qw. eauto.
      + intros l' Q. injection Q as <-. repeat split; try discriminate; eauto.
    - (* LC5 *) injection H as <-.
      eapply (cinv_move s _ i (Some LC6) I Hi); rewrite ?E; vbasics E; try discriminate; auto.
      + intros l Q Qw. eauto.
      + intros l Q Qw. eauto.
      + intros l' Q. injection Q as <-. repeat split; try discriminate; eauto.
    - (* LC6 *) injection H as <-. destruct (Wk eq_refl) as [Wk1 Wk2].
      eapply (cinv_build s _ i I Hi); rewrite ?vat_goto, ?E; cbn; try reflexivity; try discriminate; auto.
      + intros j Hj. rewrite vat_goto' by exact Hj. reflexivity.
      + apply (ci_viol s I).
      + intros j l Hj Hji E' Q. rewrite (Uq eq_refl j l Hj Hji E') in Q. discriminate.
      + intros j Hj Hji E'. pose proof (Wl eq_refl j _ Hj Hji E'). discriminate.
      + intros j l Hj Hji E' Q. pose proof (Uq eq_refl j l Hj Hji E'). pose proof (Wl eq_refl j _ Hj Hji E').
        destruct l; discriminate.
      + intros j l Hj Hji E' Q. eapply (ci_pre s I); eassumption.
      + intros l' Q. injection Q as <-. repeat split; try discriminate; auto.
      + intros _. right; left. eauto.
      + congruence.
      + apply (ci_once s I).
      + apply (ci_wait0 s I).
      + intros Q j Q1. right. destruct (ci_wait1 s I Q j Q1). split; [congruence|auto].
    - (* LC7 *) injection H as <-. destruct (Wk eq_refl) as [Wk1 Wk2].
      eapply (cinv_build s _ i I Hi); rewrite ?vat_goto, ?E; cbn; try reflexivity; try discriminate; auto.
      + intros j Hj. rewrite vat_goto' by exact Hj. reflexivity.
      + apply (ci_viol s I).
      + intros j l Hj Hji E' Q. rewrite (Uq eq_refl j l Hj Hji E') in Q. discriminate.
      + intros j l Hj Hji E' Q. eapply (ci_nov s I); eassumption.
      + intros j l Hj Hji E' Q. eapply (ci_pre s I); eassumption.
      + intros l' Q. injection Q as <-. repeat split; try discriminate; auto.
      + congruence.
      + apply (ci_once s I).
      + intros Q. destruct (ci_started s I Q) as [Q1|[Q1|[j [l [Hj [E' Q1]]]]]]; auto.
        right; right; right. exists j, l. repeat split; auto. intros ->. rewrite E in E'. injection E' as <-. discriminate.
      + apply (ci_wait0 s I).
      + intros Q j Q1. right. destruct (ci_wait1 s I Q j Q1). split; [congruence|auto].
    - (* LC8 *) injection H as <-.
      assert (Hv : c_lock (vunwait i s) = c_lock s /\ c_inproc (vunwait i s) = c_inproc s /\
                   c_valid (vunwait i s) = c_valid s /\ h_dead (vunwait i s) = h_dead s /\
                   h_done (vunwait i s) = h_done s /\ h_starts (vunwait i s) = h_starts s /\
                   c_wait (vunwait i s) = None /\ c_ths (vunwait i s) = c_ths s /\
                   (~ In VVDuplicate (h_viol (vunwait i s)) /\ ~ In VVLock (h_viol (vunwait i s)))).
      { pose proof (ci_viol s I) as [V1 V2].
        unfold vunwait. destruct (c_wait s) as [j|] eqn:Qw; [destruct (Nat.eq_dec j i)|];
          cbn; repeat split; auto; intros [Q|Q]; try discriminate; auto. }
      destruct Hv as [X1 [X2 [X3 [X4 [X5 [X6 [X7 [X8 X9]]]]]]]].
      eapply (cinv_build s _ i I Hi); rewrite ?vat_goto, ?E; cbn; rewrite ?X1, ?X2, ?X3, ?X4, ?X5, ?X6, ?X7;
        try reflexivity; try discriminate; auto.
      + intros j Hj. rewrite vat_goto' by exact Hj. unfold vat. cbn. rewrite X8. reflexivity.
      + intros j l Hj Hji E' Q. destruct (ci_work s I j l Hj E' Q) as [Q1 Q2]. repeat split; auto.
        intros l' Q'. injection Q' as <-. reflexivity.
      + intros j Hj Hji E'. eapply (ci_C0 s I); eassumption.
      + intros j l Hj Hji E' Q. eapply (ci_nov s I); eassumption.
      + intros j l Hj Hji E' Q. eapply (ci_pre s I); eassumption.
      + intros l' Q. injection Q as <-. repeat split; try discriminate; auto.
      + intros Q. destruct (ci_inproc s I Q) as [Q1|[j [l [Hj [E' Q1]]]]]; [auto|].
        right; right. exists j, l. repeat split; auto. intros ->. rewrite E in E'. injection E' as <-. discriminate.
      + apply (ci_dead s I).
      + apply (ci_once s I).
      + intros Q. destruct (ci_started s I Q) as [Q1|[Q1|[j [l [Hj [E' Q1]]]]]]; auto.
        right; right; right. exists j, l. repeat split; auto. intros ->. rewrite E in E'. injection E' as <-. discriminate.
    - (* LRead *) injection H as <-.
      eapply (cinv_move s _ i (Some (LUnl (c_value s))) I Hi); rewrite ?E; vbasics E; try discriminate; auto.
      + intros l Q Qw. injection Q as <-. discriminate.
      + intros l Q Qw. injection Q as <-. discriminate.
      + intros l' Q. injection Q as <-. repeat split; discriminate.
    - (* LUnl *) injection H as <-. rewrite Hul by reflexivity.
      eapply (cinv_move s _ i None I Hi); rewrite ?E; try reflexivity; try discriminate; auto.
      + intros j Hj. rewrite vat_return' by exact Hj. reflexivity.
      + apply vat_return.
      + intros l Q Qw. injection Q as <-. discriminate.
      + intros l Q Qw. injection Q as <-. discriminate.
  Qed.

  Theorem cinv_exec : forall s s', CInv s -> vexec s s' -> CInv s'.
  Proof.
    intros s s' I H. induction H as [|s1 s2 s3 i _ IH Hi Hs]; [assumption|].
    exact (cinv_step s2 s3 i (IH I) Hi Hs).
  Qed.
End P.
