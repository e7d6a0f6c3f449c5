(** * Cached values: answers, progress and bounds *)
From Coq Require Import List Bool Arith Lia.
From Verif Require Import Cache Cache_proofs CVal CVal_proofs.
Import ListNotations.

Section P.
  Context {T W : Type}.
  Variable func : W -> option T.
  Variable dflt : T.
  Variable ctor n : nat.

  Notation vlabel := (@vlabel T).
  Notation vstate := (@vstate T W).
  Notation vstep := (vstep func n).
  Notation vcall_step := (vcall_step func).
  Notation vexec := (vexec func n).
  Notation vrun := (vrun func n).
  Notation CInv := (@CInv T W ctor n).
  Notation vinit := (@vinit T W dflt ctor).

  Definition vgood (ws : list W) (t : T) : Prop := exists w, In w ws /\ func w = Some t.
  Definition ventry_good (e : @ventry T W) : Prop :=
    exists w, In w (ve_worlds e) /\ func w = ve_answer e.

  Definition vresult (l : vlabel) : option T :=
    match l with LC3 r | LC4 r | LC5 r | LUnl r => Some r | _ => None end.
  Definition vfilled (l : vlabel) : bool :=
    match l with LRead | LC7 | LC8 | LW2 | LW3 => true | _ => false end.
  Definition is_wait (l : vlabel) : bool :=
    match l with LW0 | LW1 | LW2 | LW3 => true | _ => false end.

  (** No clear while a call was in progress, no calculation threw, and either no clear at
      all or only one thread. *)
  Definition calm (s : vstate) : Prop :=
    h_overlap s = false /\ h_dead s = false /\ (h_cleared s = false \/ n = 1).

  Record ValInv (s : vstate) : Prop := mkValInv {
    vv_world : In (c_world s) (h_worlds s);
    vv_value : c_valid s = true -> vgood (h_worlds s) (c_value s);
    vv_res : forall j l r, j < n -> vat s j = Some l -> vresult l = Some r -> vgood (h_worlds s) r;
    vv_C6 : forall j, j < n -> vat s j = Some LC6 -> vgood (h_worlds s) (c_value s);
    vv_filled : forall j l, j < n -> vat s j = Some l -> vfilled l = true -> c_valid s = true;
    vv_done : h_cleared s = false -> h_done s = true -> c_valid s = true;
    vv_one : n = 1 -> forall j l, j < n -> vat s j = Some l -> is_wait l = false;
    vv_log : forall j e, j < n -> In e (vt_log (c_ths s j)) -> ventry_good e
  }.

  Lemma valinv_init : forall w progs, ValInv (vinit w progs).
  Proof.
    intros w progs. constructor; cbn; intros; try discriminate; auto.
    destruct H0.
  Qed.

  Lemma vgood_incl : forall ws ws' t, incl ws ws' -> vgood ws t -> vgood ws' t.
  Proof. intros ws ws' t H [w [H1 H2]]. exists w. auto. Qed.

  Lemma valinv_build : forall s s' i, ValInv s -> i < n ->
    (forall j, j <> i -> c_ths s' j = c_ths s j) ->
    In (c_world s') (h_worlds s') -> incl (h_worlds s) (h_worlds s') ->
    (c_valid s = true -> c_valid s' = true) ->
    (c_valid s' = true -> vgood (h_worlds s') (c_value s')) ->
    (c_value s' = c_value s \/ forall j, j < n -> j <> i -> vat s j <> Some LC6) ->
    (forall l', vat s' i = Some l' ->
       (forall r, vresult l' = Some r -> vgood (h_worlds s') r) /\
       (l' = LC6 -> vgood (h_worlds s') (c_value s')) /\
       (vfilled l' = true -> c_valid s' = true) /\
       (n = 1 -> is_wait l' = false)) ->
    (h_cleared s' = false -> h_cleared s = false) ->
    (h_done s' = true -> h_done s = true \/ c_valid s' = true) ->
    (vt_log (c_ths s' i) = vt_log (c_ths s i) \/
     exists e, vt_log (c_ths s' i) = vt_log (c_ths s i) ++ [e] /\ ventry_good e) ->
    ValInv s'.
  Proof.
    intros s s' i VI Hi Ho Hw Hin Hv1 Hv2 Hval Hself Hcl Hdn Hlog.
    assert (Hcase : forall j l, vat s' j = Some l -> j = i /\ vat s' i = Some l \/ j <> i /\ vat s j = Some l).
    { intros j l E. destruct (Nat.eq_dec j i) as [->|Hji]; [left; auto|right].
      unfold vat in *. rewrite (Ho j Hji) in E. auto. }
    constructor.
    - exact Hw.
    - exact Hv2.
    - intros j l r Hj E Er. destruct (Hcase j l E) as [[-> E']|[Hji E']].
      + apply (Hself l E'). exact Er.
      + eapply vgood_incl; [exact Hin|]. eapply vv_res; eassumption.
    - intros j Hj E. destruct (Hcase j _ E) as [[-> E']|[Hji E']].
      + apply (Hself _ E'). reflexivity.
      + destruct Hval as [Hval|Hval]; [|exfalso; eapply Hval; eassumption]. rewrite Hval.
        eapply vgood_incl; [exact Hin|]. eapply vv_C6; eassumption.
    - intros j l Hj E Q. destruct (Hcase j l E) as [[-> E']|[Hji E']].
      + apply (Hself l E'). exact Q.
      + apply Hv1. eapply vv_filled; eassumption.
    - intros Q1 Q2. destruct (Hdn Q2) as [Q|Q]; [|exact Q]. apply Hv1. eapply vv_done; auto.
    - intros Hn j l Hj E. destruct (Hcase j l E) as [[-> E']|[Hji E']].
      + apply (Hself l E'). exact Hn.
      + eapply vv_one; eassumption.
    - intros j e Hj He. destruct (Nat.eq_dec j i) as [->|Hji].
      + destruct Hlog as [El|[e' [El Ge]]]; rewrite El in He; [eapply vv_log; eassumption|].
        apply in_app_or in He. destruct He as [He|[<-|[]]]; [eapply vv_log; eassumption|exact Ge].
      + rewrite (Ho j Hji) in He. eapply vv_log; eassumption.
  Qed.

  (** Steps that leave validity, value and worlds alone. *)
  Lemma valinv_goto : forall (s s0 : vstate) i l', ValInv s -> i < n ->
    c_ths s0 = c_ths s -> c_world s0 = c_world s -> h_worlds s0 = h_worlds s ->
    c_valid s0 = c_valid s -> c_value s0 = c_value s -> h_cleared s0 = h_cleared s ->
    (h_done s0 = h_done s \/ c_valid s = true) ->
    (forall r, vresult l' = Some r -> vgood (h_worlds s) r) ->
    (l' = LC6 -> vgood (h_worlds s) (c_value s)) ->
    (vfilled l' = true -> c_valid s = true) ->
    (n = 1 -> is_wait l' = false) ->
    ValInv (vgoto i l' s0).
  Proof.
    intros s s0 i l' VI Hi E1 E2 E3 E4 E5 E6 E7 H1 H2 H3 H4.
    apply (valinv_build s _ i VI Hi); cbn [vgoto vset_th c_world h_worlds c_valid c_value h_cleared h_done].
    - intros j Hj. cbn. rewrite upd_other by exact Hj. rewrite E1. reflexivity.
    - rewrite E2, E3. apply (vv_world s VI).
    - rewrite E3. apply incl_refl.
    - rewrite E4. auto.
    - rewrite E3, E4, E5. apply (vv_value s VI).
    - left. exact E5.
    - intros l Q. rewrite vat_goto in Q. injection Q as <-. rewrite E3, E4, E5. auto.
    - rewrite E6. auto.
    - destruct E7 as [->| E7]; [auto|]. right. rewrite E4. exact E7.
    - left. cbn. rewrite upd_same. cbn. rewrite E1. reflexivity.
  Qed.

  Lemma valinv_return : forall (s s0 : vstate) i r, ValInv s -> i < n ->
    c_ths s0 = c_ths s -> c_world s0 = c_world s -> h_worlds s0 = h_worlds s ->
    c_valid s0 = c_valid s -> c_value s0 = c_value s -> h_cleared s0 = h_cleared s ->
    h_done s0 = h_done s ->
    ventry_good (mkVEntry r (h_worlds s)) ->
    ValInv (vreturn i r s0).
  Proof.
    intros s s0 i r VI Hi E1 E2 E3 E4 E5 E6 E7 H1.
    apply (valinv_build s _ i VI Hi); cbn [vreturn vset_th c_world h_worlds c_valid c_value h_cleared h_done].
    - intros j Hj. cbn. rewrite upd_other by exact Hj. rewrite E1. reflexivity.
    - rewrite E2, E3. apply (vv_world s VI).
    - rewrite E3. apply incl_refl.
    - rewrite E4. auto.
    - rewrite E3, E4, E5. apply (vv_value s VI).
    - left. exact E5.
    - intros l Q. rewrite vat_return in Q. discriminate.
    - rewrite E6. auto.
    - rewrite E7. auto.
    - right. eexists. cbn. rewrite upd_same. cbn. rewrite E1. rewrite E3. split; [reflexivity|exact H1].
  Qed.

  Lemma vbusy_false : forall (s : vstate) m, vbusy s m = false -> forall j, j < m -> vat s j = None.
  Proof.
    intros s m. induction m as [|m IH]; intros H j Hj; [lia|]. cbn [vbusy] in H.
    apply orb_false_iff in H. destruct H as [H1 H2].
    destruct (Nat.eq_dec j m) as [->|Hn]; [|apply IH; auto; lia].
    unfold vat. destruct (vt_at (c_ths s m)); [discriminate|reflexivity].
  Qed.

  (** Fields that releasing a lock leaves alone. *)
  Record vsame (s s0 : vstate) : Prop := mkVSame {
    vs_ths : c_ths s0 = c_ths s; vs_world : c_world s0 = c_world s;
    vs_worlds : h_worlds s0 = h_worlds s; vs_valid : c_valid s0 = c_valid s;
    vs_value : c_value s0 = c_value s; vs_cleared : h_cleared s0 = h_cleared s;
    vs_done : h_done s0 = h_done s; vs_overlap : h_overlap s0 = h_overlap s;
    vs_dead : h_dead s0 = h_dead s
  }.
  Lemma vsame_unlock : forall i s, vsame s (vunlock i s).
  Proof.
    intros. unfold vunlock. destruct (c_lock s) as [j|]; [destruct (Nat.eq_dec j i)|]; constructor; reflexivity.
  Qed.
  Lemma vsame_unwait : forall i s, vsame s (vunwait i s).
  Proof.
    intros. unfold vunwait. destruct (c_wait s) as [j|]; [destruct (Nat.eq_dec j i)|]; constructor; reflexivity.
  Qed.

  Lemma calm_back : forall s s' i, vstep i s = Some s' -> calm s' -> calm s.
  Proof.
    intros s s' i H [H1 [H2 H3]]. unfold CVal.vstep in H.
    destruct (vt_at (c_ths s i)) as [l|] eqn:E.
    - assert (Q : h_overlap s' = h_overlap s /\ h_cleared s' = h_cleared s /\ (h_dead s = true -> h_dead s' = true)).
      { pose proof (vsame_unlock i s) as [_ _ _ _ _ U1 _ U2 U3].
        pose proof (vsame_unwait i s) as [_ _ _ _ _ X1 _ X2 X3].
        destruct l; cbn [CVal.vcall_step] in H;
          repeat match type of H with
                 | match ?x with _ => _ end = _ => destruct x eqn:?; try discriminate
                 end; injection H as <-; cbn [vgoto vreturn vset_th h_overlap h_cleared h_dead vdone vdie
                   vset_lock vset_wait vset_inproc vset_valid vset_value vstart];
          rewrite ?U1, ?U2, ?U3, ?X1, ?X2, ?X3; auto.
        destruct (c_valid s); auto. }
      destruct Q as [Q1 [Q2 Q3]]. split; [congruence|]. split.
      + destruct (h_dead s) eqn:Q; [|reflexivity]. rewrite (Q3 eq_refl) in H2. discriminate.
      + destruct H3; [left; congruence|right; assumption].
    - destruct (vt_prog (c_ths s i)) as [|[| |w] rest]; [discriminate| | |]; injection H as <-;
        cbn in H1, H2, H3.
      + split; [exact H1|split; assumption].
      + apply orb_false_iff in H1. destruct H1. split; [assumption|]. split; [exact H2|].
        destruct H3; [discriminate|auto].
      + split; [exact H1|split; assumption].
  Qed.

  Theorem valinv_step : forall s s' i, CInv s -> ValInv s -> i < n -> vstep i s = Some s' -> calm s' ->
    ValInv s'.
  Proof.
    intros s s' i I VI Hi H Hcalm. pose proof (calm_back s s' i H Hcalm) as [Hov [Hdead Hcl]].
    unfold CVal.vstep in H. destruct (vt_at (c_ths s i)) as [l|] eqn:E.
    2:{ destruct (vt_prog (c_ths s i)) as [|[| |w] rest]; [discriminate| | |]; injection H as <-.
      - apply (valinv_build s _ i VI Hi); cbn [vset_th c_world h_worlds c_valid c_value h_cleared h_done c_ths]; auto.
        + intros j Hj. rewrite upd_other by exact Hj. reflexivity.
        + apply (vv_world s VI).
        + apply incl_refl.
        + apply (vv_value s VI).
        + intros l' Q. unfold vat in Q. cbn in Q. rewrite upd_same in Q. injection Q as <-.
          repeat split; discriminate.
        + left. rewrite upd_same. reflexivity.
      - destruct Hcalm as [Q _]. cbn in Q. apply orb_false_iff in Q. destruct Q as [_ Hb].
        pose proof (vbusy_false s n Hb) as Hidle.
        assert (Hall : forall j, j < n ->
          vt_at (upd Nat.eq_dec (c_ths s) i (mkVTh rest None (vt_log (c_ths s i))) j) = None).
        { intros j Hj. destruct (Nat.eq_dec j i) as [->|Hji]; [rewrite upd_same; reflexivity|].
          rewrite upd_other by exact Hji. apply Hidle. exact Hj. }
        constructor; unfold vat; cbn [c_world h_worlds c_valid c_value h_cleared h_done c_ths].
        + left. reflexivity.
        + discriminate.
        + intros j l r Hj Q. rewrite Hall in Q by exact Hj. discriminate.
        + intros j Hj Q. rewrite Hall in Q by exact Hj. discriminate.
        + intros j l Hj Q. rewrite Hall in Q by exact Hj. discriminate.
        + discriminate.
        + intros _ j l Hj Q. rewrite Hall in Q by exact Hj. discriminate.
        + intros j e Hj He. apply (vv_log s VI j e Hj).
          destruct (Nat.eq_dec j i) as [->|Hji]; [rewrite upd_same in He; exact He|].
          rewrite upd_other in He by exact Hji. exact He.
      - apply (valinv_build s _ i VI Hi); cbn [c_world h_worlds c_valid c_value h_cleared h_done c_ths]; auto.
        + intros j Hj. rewrite upd_other by exact Hj. reflexivity.
        + left. reflexivity.
        + apply incl_tl. apply incl_refl.
        + intros Q. eapply vgood_incl; [apply incl_tl; apply incl_refl|]. apply (vv_value s VI Q).
        + intros l' Q. unfold vat in Q. cbn in Q. rewrite upd_same in Q. discriminate.
        + left. rewrite upd_same. reflexivity. }
    change (vat s i = Some l) in E.
    pose proof (vsame_unlock i s) as [U1 U2 U3 U4 U5 U6 U7 U8 U9].
    pose proof (vsame_unwait i s) as [X1 X2 X3 X4 X5 X6 X7 X8 X9].
    pose proof (vv_res s VI i l) as Hr. pose proof (vv_filled s VI i l Hi E) as Hf.
    pose proof (fun Hn => vv_one s VI Hn i l Hi E) as H1.
    destruct l; cbn [CVal.vcall_step] in H.
    - destruct (c_lock s); [discriminate|]. injection H as <-.
      eapply (valinv_goto s); try reflexivity; try discriminate; auto.
    - injection H as <-. destruct (c_valid s) eqn:Qv;
        eapply (valinv_goto s); try reflexivity; try discriminate; auto.
    - injection H as <-. destruct (c_inproc s) eqn:Qv;
        eapply (valinv_goto s); try reflexivity; try discriminate; auto.
      intros Hn. exfalso. destruct (ci_inproc _ _ s I Qv) as [Q|[j [l [Hj [E' Q]]]]]; [congruence|].
      assert (j = i) by lia. subst j. rewrite E in E'. injection E' as <-. discriminate.
    - injection H as <-. eapply (valinv_goto s); try assumption; try discriminate; auto.
    - destruct (c_wait s) eqn:Qw; [discriminate|]. injection H as <-.
      eapply (valinv_goto s); try reflexivity; try discriminate; auto.
      intros _. destruct Hcl as [Hcl|Hn]; [|discriminate (H1 Hn)].
      apply (vv_done s VI Hcl). destruct (h_done s) eqn:Q; [reflexivity|].
      rewrite (ci_wait0 _ _ s I Q) in Qw. discriminate.
    - injection H as <-. eapply (valinv_goto s); try assumption; try discriminate; auto.
    - destruct (c_lock s); [discriminate|]. injection H as <-.
      eapply (valinv_goto s); try reflexivity; try discriminate; auto.
    - injection H as <-. eapply (valinv_goto s); try reflexivity; try discriminate; auto.
    - injection H as <-. eapply (valinv_goto s); try assumption; try discriminate; auto.
    - injection H as <-. eapply (valinv_goto s); try reflexivity; try discriminate; auto.
    - destruct (func (c_world s)) as [r|] eqn:Qf; injection H as <-.
      + eapply (valinv_goto s); try reflexivity; try discriminate; auto.
        intros r' Q. injection Q as <-. exists (c_world s). split; [apply (vv_world s VI)|exact Qf].
      + eapply (valinv_return s); try reflexivity; auto.
        exists (c_world s). split; [apply (vv_world s VI)|exact Qf].
    - destruct (c_lock s); [discriminate|]. injection H as <-.
      eapply (valinv_goto s); try reflexivity; try discriminate; auto.
    - rewrite (ci_nov _ _ s I i _ Hi E eq_refl) in H. injection H as <-.
      eapply (valinv_goto s); try reflexivity; try discriminate; auto.
    - (* LC5 *) injection H as <-. pose proof (ci_nov _ _ s I i _ Hi E eq_refl) as Hnv.
      apply (valinv_build s _ i VI Hi); cbn [vgoto vset_th vset_value c_world h_worlds c_valid c_value h_cleared h_done]; auto.
      + intros j Hj. cbn. rewrite upd_other by exact Hj. reflexivity.
      + apply (vv_world s VI).
      + apply incl_refl.
      + right. intros j Hj Hji Q. apply Hji. eapply (ci_uniq _ _ s I); try eassumption; reflexivity.
      + intros l' Q. rewrite vat_goto in Q. injection Q as <-. repeat split; try discriminate.
        intros _. apply (Hr r Hi E eq_refl).
      + left. cbn. rewrite upd_same. reflexivity.
    - (* LC6 *) injection H as <-.
      apply (valinv_build s _ i VI Hi); cbn [vgoto vset_th vset_valid c_world h_worlds c_valid c_value h_cleared h_done]; auto.
      + intros j Hj. cbn. rewrite upd_other by exact Hj. reflexivity.
      + apply (vv_world s VI).
      + apply incl_refl.
      + intros _. apply (vv_C6 s VI i Hi E).
      + intros l' Q. rewrite vat_goto in Q. injection Q as <-. repeat split; try discriminate.
      + left. cbn. rewrite upd_same. reflexivity.
    - injection H as <-. eapply (valinv_goto s); try reflexivity; try discriminate; auto.
    - injection H as <-. eapply (valinv_goto s); try assumption; try discriminate; auto.
    - injection H as <-. eapply (valinv_goto s); try reflexivity; try discriminate; auto.
      intros r Q. injection Q as <-. apply (vv_value s VI). apply Hf. reflexivity.
    - injection H as <-. eapply (valinv_return s); try assumption; auto.
      destruct (Hr r Hi E eq_refl) as [w [Q1 Q2]]. exists w. split; [exact Q1|exact Q2].
  Qed.

  Theorem valinv_exec : forall w progs s, vexec (vinit w progs) s -> calm s -> ValInv s.
  Proof.
    intros w progs s H. remember (vinit w progs) as s0 eqn:E0.
    induction H as [s1|s1 s2 s3 i Hx IH Hi Hs]; intros Hc; [subst; apply valinv_init|].
    assert (I2 : CInv s2).
    { eapply cinv_exec; [|exact Hx]. subst. apply cinv_init. }
    apply (valinv_step s2 s3 i I2); try assumption. apply IH; [exact E0|].
    eapply calm_back; eassumption.
  Qed.

  (** ** Programs and answers *)

  Definition ncalls (p : list (@vop W)) : nat :=
    length (filter (fun o => match o with VCall => true | _ => false end) p).
  Definition vhistory (t : @vthread T W) : nat :=
    length (vt_log t) + (match vt_at t with Some _ => 1 | None => 0 end) + ncalls (vt_prog t).

  (** The moving thread, and nobody else, changes. *)
  Lemma vths : forall s s' i, vstep i s = Some s' ->
    (forall j, j <> i -> c_ths s' j = c_ths s j) /\
    vhistory (c_ths s' i) = vhistory (c_ths s i) /\
    (forall P : vop -> Prop, Forall P (vt_prog (c_ths s i)) -> Forall P (vt_prog (c_ths s' i))).
  Proof.
    intros s s' i H. unfold CVal.vstep in H. destruct (vt_at (c_ths s i)) as [l|] eqn:E.
    - assert (Hg : forall (s0 : vstate) l', c_ths s0 = c_ths s -> 
         (forall j, j <> i -> c_ths (vgoto i l' s0) j = c_ths s j) /\
         vhistory (c_ths (vgoto i l' s0) i) = vhistory (c_ths s i) /\
         (forall P : vop -> Prop, Forall P (vt_prog (c_ths s i)) -> Forall P (vt_prog (c_ths (vgoto i l' s0) i)))).
      { intros s0 l' Es. unfold vgoto, vset_th. cbn. rewrite Es. split; [|split].
        - intros j Hj. apply upd_other. exact Hj.
        - rewrite upd_same. unfold vhistory. cbn. rewrite E. reflexivity.
        - rewrite upd_same. auto. }
      assert (Hr : forall (s0 : vstate) r, c_ths s0 = c_ths s -> 
         (forall j, j <> i -> c_ths (vreturn i r s0) j = c_ths s j) /\
         vhistory (c_ths (vreturn i r s0) i) = vhistory (c_ths s i) /\
         (forall P : vop -> Prop, Forall P (vt_prog (c_ths s i)) -> Forall P (vt_prog (c_ths (vreturn i r s0) i)))).
      { intros s0 r Es. unfold vreturn, vset_th. cbn. rewrite Es. split; [|split].
        - intros j Hj. apply upd_other. exact Hj.
        - rewrite upd_same. unfold vhistory. cbn [vt_log vt_at vt_prog]. rewrite E, app_length. cbn [length]. lia.
        - rewrite upd_same. auto. }
      destruct l; cbn [CVal.vcall_step] in H;
        repeat match type of H with
               | match ?x with _ => _ end = _ => destruct x eqn:?; try discriminate
               end; injection H as <-;
        first [apply Hr|apply Hg];
        first [reflexivity | apply vs_ths; apply vsame_unlock | apply vs_ths; apply vsame_unwait | idtac].
      + destruct (c_valid s); reflexivity.
      + cbn. apply vs_ths. apply vsame_unwait.
    - destruct (vt_prog (c_ths s i)) as [|o rest] eqn:Ep; [discriminate|].
      destruct o; injection H as <-; cbn [vset_th c_ths]; (split; [|split]);
        try (intros j Hj; apply upd_other; exact Hj);
        try (rewrite upd_same; unfold vhistory; rewrite E, Ep; unfold ncalls; cbn; lia);
        rewrite upd_same; cbn; intros P HP; inversion HP; assumption.
  Qed.

  Lemma vhistory_exec : forall w progs s, vexec (vinit w progs) s ->
    forall j, vhistory (c_ths s j) = ncalls (progs j).
  Proof.
    intros w progs s H. remember (vinit w progs) as s0 eqn:E0.
    induction H as [s1|s1 s2 s3 i Hx IH Hi Hs]; intros j.
    - subst. reflexivity.
    - rewrite <- (IH E0 j). destruct (vths s2 s3 i Hs) as [Q1 [Q2 _]].
      destruct (Nat.eq_dec j i) as [->|Hj]; [exact Q2|rewrite Q1; auto].
  Qed.

  Lemma uncleared_exec : forall w progs s, (forall j, Forall (fun o => o <> VClear) (progs j)) ->
    vexec (vinit w progs) s -> h_cleared s = false /\ h_overlap s = false.
  Proof.
    intros w progs s Hc H.
    assert (Q : (h_cleared s = false /\ h_overlap s = false) /\
                forall j, Forall (fun o => o <> VClear) (vt_prog (c_ths s j))); [|apply Q].
    remember (vinit w progs) as s0 eqn:E0.
    induction H as [s1|s1 s2 s3 i Hx IH Hi Hs].
    - subst. cbn. auto.
    - destruct (IH E0) as [[Q1 Q1'] Q2]. destruct (vths s2 s3 i Hs) as [R1 [_ R3]]. split.
      2:{ intros j. destruct (Nat.eq_dec j i) as [->|Hj]; [apply R3; apply Q2|rewrite R1; auto]. }
      unfold CVal.vstep in Hs. destruct (vt_at (c_ths s2 i)) as [l|] eqn:E.
      + pose proof (vsame_unlock i s2) as [_ _ _ _ _ U1 _ U2 U3].
        pose proof (vsame_unwait i s2) as [_ _ _ _ _ X1 _ X2 X3].
        destruct l; cbn [CVal.vcall_step] in Hs;
          repeat match type of Hs with
                 | match ?x with _ => _ end = _ => destruct x eqn:?; try discriminate
                 end; injection Hs as <-; cbn [vgoto vreturn vset_th h_overlap h_cleared h_dead vdone vdie
                   vset_lock vset_wait vset_inproc vset_valid vset_value vstart];
          rewrite ?U1, ?U2, ?X1, ?X2; auto.
        destruct (c_valid s2); auto.
      + specialize (Q2 i). destruct (vt_prog (c_ths s2 i)) as [|o rest]; [discriminate|].
        inversion Q2; subst. destruct o; injection Hs as <-; auto. congruence.
  Qed.

  Lemma alone_exec : n = 1 -> forall w progs s, vexec (vinit w progs) s -> h_overlap s = false.
  Proof.
    intros Hn w progs s H. remember (vinit w progs) as s0 eqn:E0.
    induction H as [s1|s1 s2 s3 i Hx IH Hi Hs]; [subst; reflexivity|].
    specialize (IH E0). unfold CVal.vstep in Hs. destruct (vt_at (c_ths s2 i)) as [l|] eqn:E.
    - pose proof (vsame_unlock i s2) as [_ _ _ _ _ U1 _ U2 U3].
      pose proof (vsame_unwait i s2) as [_ _ _ _ _ X1 _ X2 X3].
      destruct l; cbn [CVal.vcall_step] in Hs;
        repeat match type of Hs with
               | match ?x with _ => _ end = _ => destruct x eqn:?; try discriminate
               end; injection Hs as <-; cbn [vgoto vreturn vset_th h_overlap h_cleared h_dead vdone vdie
                 vset_lock vset_wait vset_inproc vset_valid vset_value vstart];
        rewrite ?U2, ?X2; auto.
      destruct (c_valid s2); auto.
    - destruct (vt_prog (c_ths s2 i)) as [|o rest]; [discriminate|].
      destruct o; injection Hs as <-; cbn; auto.
      rewrite IH. cbn. rewrite Hn. cbn. assert (i = 0) by lia. subst i. rewrite E. reflexivity.
  Qed.

  Lemma valive_exec : (forall w, func w <> None) -> forall w progs s, vexec (vinit w progs) s ->
    h_dead s = false.
  Proof.
    intros Ht w progs s H. remember (vinit w progs) as s0 eqn:E0.
    induction H as [s1|s1 s2 s3 i Hx IH Hi Hs]; [subst; reflexivity|].
    specialize (IH E0). unfold CVal.vstep in Hs. destruct (vt_at (c_ths s2 i)) as [l|] eqn:E.
    - pose proof (vsame_unlock i s2) as [_ _ _ _ _ U1 _ U2 U3].
      pose proof (vsame_unwait i s2) as [_ _ _ _ _ X1 _ X2 X3].
      destruct l; cbn [CVal.vcall_step] in Hs;
        repeat match type of Hs with
               | match ?x with _ => _ end = _ => destruct x eqn:?; try discriminate
               end; injection Hs as <-; cbn [vgoto vreturn vset_th h_overlap h_cleared h_dead vdone vdie
                 vset_lock vset_wait vset_inproc vset_valid vset_value vstart];
        rewrite ?U3, ?X3; auto.
      + exfalso. eapply Ht. eassumption.
      + destruct (c_valid s2); auto.
    - destruct (vt_prog (c_ths s2 i)) as [|o rest]; [discriminate|].
      destruct o; injection Hs as <-; exact IH.
  Qed.

  (** ** Progress *)

  Definition vstuck (s : vstate) (j : nat) : Prop :=
    vat s j = Some LW1 /\ h_done s = false /\ h_dead s = true.

  Theorem vprogress : forall s, CInv s ->
    (forall j, j < n -> vidle (c_ths s j) \/ vstuck s j) \/ exists i, i < n /\ vstep i s <> None.
  Proof.
    intros s I.
    assert (Hgo : forall j l, j < n -> vat s j = Some l -> vcall_step j s l <> None ->
                  exists i, i < n /\ vstep i s <> None).
    { intros j l Hj E Q. exists j. split; [exact Hj|]. unfold CVal.vstep. unfold vat in E. rewrite E. exact Q. }
    destruct (c_lock s) as [j|] eqn:Ql.
    { right. destruct (ci_lock' _ _ s I j Ql) as [Hj [l [E Hc]]]. apply (Hgo j l Hj E).
      destruct l; try discriminate Hc; cbn; discriminate. }
    assert (Hone : forall j, j < n -> (vidle (c_ths s j) \/ vstuck s j) \/ exists i, i < n /\ vstep i s <> None).
    { intros j Hj. destruct (vat s j) as [l|] eqn:E.
      2:{ destruct (vt_prog (c_ths s j)) as [|o rest] eqn:Ep; [left; left; split; assumption|].
          right. exists j. split; [exact Hj|]. unfold CVal.vstep. unfold vat in E. rewrite E, Ep.
          destruct o; discriminate. }
      assert (Hnc : vcrit l = false).
      { destruct (vcrit l) eqn:Q; [|reflexivity]. rewrite (ci_lock _ _ s I j l Hj E Q) in Ql. discriminate. }
      destruct l; try discriminate Hnc;
        try (right; apply (Hgo j _ Hj E); cbn; rewrite ?Ql; discriminate).
      - destruct (c_wait s) as [k|] eqn:Qw.
        2:{ right. apply (Hgo j _ Hj E). cbn. rewrite Qw. discriminate. }
        destruct (h_done s) eqn:Qd.
        + right. destruct (ci_wait1 _ _ s I Qd k Qw) as [Hk Ek]. apply (Hgo k _ Hk Ek). cbn. discriminate.
        + destruct (ci_W01 _ _ s I j _ Hj E eq_refl Qd) as [Qi|[j' [Hj' E']]].
          2:{ right. apply (Hgo j' _ Hj' E'). cbn. discriminate. }
          destruct (ci_inproc _ _ s I Qi) as [Q|[j' [l' [Hj' [E' Q]]]]].
          { left; right. split; [exact E|]. auto. }
          right. apply (Hgo j' _ Hj' E').
          destruct l'; try discriminate Q; cbn; rewrite ?Ql; try discriminate.
          destruct (func (c_world s)); discriminate.
      - right. apply (Hgo j _ Hj E). cbn. destruct (func (c_world s)); discriminate. }
    assert (Hall : forall m, m <= n ->
              (forall j, j < m -> vidle (c_ths s j) \/ vstuck s j) \/ exists i, i < n /\ vstep i s <> None).
    { induction m as [|m IH]; intros Hm; [left; intros; lia|].
      destruct (IH ltac:(lia)) as [IH'|]; [|auto].
      destruct (Hone m ltac:(lia)) as [Q|]; [|auto]. left. intros j Hj.
      destruct (Nat.eq_dec j m) as [->|]; [exact Q|]. apply IH'. lia. }
    apply Hall. lia.
  Qed.

  (** ** Every schedule ends *)

  Definition vrank (l : vlabel) : nat :=
    match l with
    | L0 => 16 | L1 => 15 | L2 => 14
    | LW0 => 6 | LW1 => 5 | LW2 => 4 | LW3 => 3
    | LC0 => 12 | LC1 => 11 | LC2 => 10 | LC2b => 9 | LC3 _ => 8 | LC4 _ => 7 | LC5 _ => 6
    | LC6 => 5 | LC7 => 4 | LC8 => 3
    | LRead => 2 | LUnl _ => 1
    end.
  Definition vwork (t : @vthread T W) : nat :=
    17 * length (vt_prog t) + match vt_at t with Some l => vrank l | None => 0 end.
  Fixpoint vtotal (f : nat -> nat) (m : nat) : nat :=
    match m with O => 0 | S j => f j + vtotal f j end.
  Definition vtodo (s : vstate) : nat := vtotal (fun j => vwork (c_ths s j)) n.

  Lemma vtotal_change : forall f g i m, i < m -> (forall j, j <> i -> g j = f j) ->
    vtotal g m + f i = vtotal f m + g i.
  Proof.
    intros f g i m. induction m as [|m IH]; intros Hi H; [lia|]. cbn [vtotal].
    destruct (Nat.eq_dec i m) as [->|Hn].
    - assert (E : vtotal g m = vtotal f m); [|lia].
      clear - H. assert (Q : forall p, p <= m -> vtotal g p = vtotal f p); [|apply Q; lia].
      induction p as [|p IH]; intros Hp; [reflexivity|]. cbn [vtotal]. rewrite H by lia. rewrite IH by lia. reflexivity.
    - rewrite (H m) by lia. specialize (IH ltac:(lia) H). lia.
  Qed.

  Lemma vwork_step : forall s s' i, vstep i s = Some s' -> vwork (c_ths s' i) < vwork (c_ths s i).
  Proof.
    intros s s' i H. unfold CVal.vstep in H. destruct (vt_at (c_ths s i)) as [l|] eqn:E.
    - assert (Hg : forall (s0 : vstate) l', c_ths s0 = c_ths s -> vrank l' < vrank l ->
         vwork (c_ths (vgoto i l' s0) i) < vwork (c_ths s i)).
      { intros s0 l' Es Q. unfold vgoto, vset_th. cbn. rewrite Es, upd_same. unfold vwork. cbn. rewrite E. lia. }
      assert (Hr : forall (s0 : vstate) r, c_ths s0 = c_ths s ->
         vwork (c_ths (vreturn i r s0) i) < vwork (c_ths s i)).
      { intros s0 r Es. unfold vreturn, vset_th. cbn. rewrite Es, upd_same. unfold vwork. cbn. rewrite E.
        destruct l; cbn; lia. }
      destruct l; cbn [CVal.vcall_step] in H;
        repeat match type of H with
               | match ?x with _ => _ end = _ => destruct x eqn:?; try discriminate
               end; injection H as <-;
        first [apply Hr|apply Hg];
        first [reflexivity | apply vs_ths; apply vsame_unlock | apply vs_ths; apply vsame_unwait
              | cbn [vrank]; lia | idtac].
      + destruct (c_valid s); cbn; lia.
      + destruct (c_inproc s); cbn; lia.
      + destruct (c_valid s); reflexivity.
      + cbn. apply vs_ths. apply vsame_unwait.
    - destruct (vt_prog (c_ths s i)) as [|o rest] eqn:Ep; [discriminate|].
      destruct o; injection H as <-; cbn [vset_th c_ths]; rewrite upd_same; unfold vwork;
        rewrite Ep, E; cbn; lia.
  Qed.

  Lemma vtodo_step : forall s s' i, i < n -> vstep i s = Some s' -> vtodo s' < vtodo s.
  Proof.
    intros s s' i Hi H. destruct (vths s s' i H) as [H1 _]. pose proof (vwork_step s s' i H) as H2. unfold vtodo.
    pose proof (vtotal_change (fun j => vwork (c_ths s j)) (fun j => vwork (c_ths s' j)) i n Hi) as C.
    cbn beta in C. assert (Q : forall j, j <> i -> vwork (c_ths s' j) = vwork (c_ths s j)).
    { intros j Hj. rewrite H1 by exact Hj. reflexivity. }
    specialize (C Q). lia.
  Qed.

  Lemma vrun_bound : forall sched s s', vrun sched s = Some s' -> length sched + vtodo s' <= vtodo s.
  Proof.
    induction sched as [|i sched IH]; intros s s' H; cbn [CVal.vrun] in H.
    - injection H as <-. cbn. lia.
    - destruct (i <? n) eqn:Hi; [|discriminate]. apply Nat.ltb_lt in Hi.
      destruct (vstep i s) as [s1|] eqn:Es; [|discriminate].
      specialize (IH _ _ H). pose proof (vtodo_step s s1 i Hi Es). cbn [length]. lia.
  Qed.

  Lemma vtodo_init : forall w progs, vtodo (vinit w progs) = 17 * vtotal (fun j => length (progs j)) n.
  Proof.
    intros w progs. unfold vtodo. induction n as [|m IH]; [reflexivity|]. cbn [vtotal]. rewrite IH.
    unfold vwork, CVal.vinit. cbn [c_ths vt_prog vt_at]. lia.
  Qed.

  Lemma vrun_exec : forall sched s s1 s', vexec s s1 -> vrun sched s1 = Some s' -> vexec s s'.
  Proof.
    induction sched as [|i sched IH]; intros s s1 s' Hx H; cbn [CVal.vrun] in H.
    - injection H as <-. exact Hx.
    - destruct (i <? n) eqn:Hi; [|discriminate]. apply Nat.ltb_lt in Hi.
      destruct (vstep i s1) as [s2|] eqn:Es; [|discriminate].
      eapply IH; [|exact H]. eapply vexec_step; eassumption.
  Qed.
End P.
