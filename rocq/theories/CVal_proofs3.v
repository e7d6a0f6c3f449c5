(** * Cached values: the waiting lock before the first clear, and running to the end *)
From Coq Require Import List Bool Arith Lia.
From Verif Require Import Cache Cache_proofs CVal CVal_proofs CVal_proofs2.
Import ListNotations.

Section P.
  Context {T W : Type}.
  Variable func : W -> option T.
  Variable dflt : T.
  Variable ctor n : nat.

  Notation vlabel := (@vlabel T).
  Notation vstate := (@vstate T W).
  Notation vstep := (vstep func n).
  Notation vexec := (vexec func n).
  Notation CInv := (@CInv T W ctor n).
  Notation ValInv := (@ValInv T W func n).
  Notation calm := (@calm T W n).
  Notation vinit := (@vinit T W dflt ctor).

  Definition ending (l : vlabel) : bool := match l with LC7 | LC8 => true | _ => false end.

  Record XInv (s : vstate) : Prop := mkXInv {
    x_end : forall j l, j < n -> vat s j = Some l -> ending l = true -> h_done s = false;
    x_hold : forall j, j < n -> vat s j = Some LW2 -> c_wait s = Some j;
    x_viol : h_viol s = [] \/ h_viol s = [VVWaitOther] /\ h_done s = true /\ ~ (n = 1 /\ ctor = 0)
  }.

  Lemma xinv_init : forall w progs, XInv (vinit w progs).
  Proof. intros. constructor; cbn; intros; try discriminate. left. reflexivity. Qed.

  Lemma xinv_build : forall s s' i, XInv s -> i < n ->
    (forall j, j <> i -> vat s' j = vat s j) ->
    (forall l, vat s' i = Some l -> ending l = true -> h_done s' = false) ->
    (vat s' i = Some LW2 -> c_wait s' = Some i) ->
    (h_done s' = h_done s \/ forall j l, j < n -> j <> i -> vat s j = Some l -> ending l = false) ->
    (c_wait s' = c_wait s \/ forall j, j < n -> j <> i -> vat s j <> Some LW2) ->
    (h_viol s' = h_viol s /\ (h_done s = true -> h_done s' = true) \/
     h_viol s = [] /\ h_viol s' = [VVWaitOther] /\ h_done s' = true /\ ~ (n = 1 /\ ctor = 0)) ->
    XInv s'.
  Proof.
    intros s s' i [X1 X2 X3] Hi Ho He Hh Hd Hw Hv. constructor.
    - intros j l Hj E Q. destruct (Nat.eq_dec j i) as [->|Hji]; [eapply He; eassumption|].
      rewrite (Ho j Hji) in E. destruct Hd as [->|Hd]; [eapply X1; eassumption|].
      rewrite (Hd j l Hj Hji E) in Q. discriminate.
    - intros j Hj E. destruct (Nat.eq_dec j i) as [->|Hji]; [auto|].
      rewrite (Ho j Hji) in E. destruct Hw as [->|Hw]; [apply X2; assumption|]. exfalso. eapply Hw; eassumption.
    - destruct Hv as [[-> Hv]|[_ [H1 [H2 H3]]]]; [|right; auto].
      destruct X3 as [X3|[Y1 [Y2 Y3]]]; [left; exact X3|right; auto].
  Qed.

  Lemma xinv_goto : forall (s s0 : vstate) i l', XInv s -> i < n ->
    c_ths s0 = c_ths s -> c_wait s0 = c_wait s -> h_done s0 = h_done s -> h_viol s0 = h_viol s ->
    l' <> LW2 -> (ending l' = true -> h_done s = false) ->
    XInv (vgoto i l' s0).
  Proof.
    intros s s0 i l' XI Hi E1 E2 E3 E4 H1 H2.
    apply (xinv_build s _ i XI Hi); cbn [vgoto vset_th c_wait h_done h_viol]; rewrite ?E2, ?E3, ?E4; auto.
    - intros j Hj. rewrite vat_goto' by exact Hj. unfold vat. rewrite E1. reflexivity.
    - intros l Q. rewrite vat_goto in Q. injection Q as <-. exact H2.
    - intros Q. rewrite vat_goto in Q. congruence.
  Qed.
  Lemma xinv_return : forall (s s0 : vstate) i r, XInv s -> i < n ->
    c_ths s0 = c_ths s -> c_wait s0 = c_wait s -> h_done s0 = h_done s -> h_viol s0 = h_viol s ->
    XInv (vreturn i r s0).
  Proof.
    intros s s0 i r XI Hi E1 E2 E3 E4.
    apply (xinv_build s _ i XI Hi); cbn [vreturn vset_th c_wait h_done h_viol]; rewrite ?E2, ?E3, ?E4; auto.
    - intros j Hj. rewrite vat_return' by exact Hj. unfold vat. rewrite E1. reflexivity.
    - intros l Q. rewrite vat_return in Q. discriminate.
    - intros Q. rewrite vat_return in Q. discriminate.
  Qed.

  Lemma xinv_step : forall s s' i, CInv s -> ValInv s -> calm s -> h_cleared s = false ->
    h_cleared s' = false -> XInv s -> i < n ->
    vstep i s = Some s' -> XInv s'.
  Proof.
    intros s s' i I VI [Hov [Hdead Hcl]] Hc0 Hc' XI Hi H.
    unfold CVal.vstep in H. destruct (vt_at (c_ths s i)) as [l|] eqn:E.
    2:{ destruct (vt_prog (c_ths s i)) as [|o rest]; [discriminate|].
        destruct o as [| |w]; injection H as <-; try discriminate Hc';
          apply (xinv_build s _ i XI Hi); cbn [vset_th h_done c_wait h_viol]; auto; unfold vat; cbn [vset_th c_ths];
          rewrite ?upd_same; cbn [vt_at]; try discriminate;
          try (intros j Hj; rewrite upd_other by exact Hj; reflexivity).
        intros l Q. injection Q as <-. discriminate. }
    change (vat s i = Some l) in E.
    assert (Hul : vcrit l = true -> vunlock i s = vset_lock None s).
    { intros Q. unfold vunlock. rewrite (ci_lock _ _ s I i l Hi E Q). destruct (Nat.eq_dec i i); congruence. }
    pose proof (x_end s XI i l Hi E) as He.
    destruct l; cbn [CVal.vcall_step] in H.
    - destruct (c_lock s); [discriminate|]. injection H as <-.
      apply (xinv_goto s); try reflexivity; auto; discriminate.
    - injection H as <-. destruct (c_valid s); apply (xinv_goto s); try reflexivity; auto; discriminate.
    - injection H as <-. destruct (c_inproc s); apply (xinv_goto s); try reflexivity; auto; discriminate.
    - injection H as <-. rewrite Hul by reflexivity. apply (xinv_goto s); try reflexivity; auto; discriminate.
    - destruct (c_wait s) eqn:Qw; [discriminate|]. injection H as <-.
      apply (xinv_build s _ i XI Hi); cbn [vgoto vset_th vset_wait c_wait h_done h_viol]; auto.
      + intros j Hj. rewrite vat_goto' by exact Hj. reflexivity.
      + intros l Q. rewrite vat_goto in Q. injection Q as <-. discriminate.
      + right. intros j Hj Hji Q. rewrite (x_hold s XI j Hj Q) in Qw. discriminate.
    - injection H as <-. pose proof (x_hold s XI i Hi E) as Qw.
      assert (Hu : vunwait i s = vset_wait None s).
      { unfold vunwait. rewrite Qw. destruct (Nat.eq_dec i i); congruence. }
      rewrite Hu. apply (xinv_build s _ i XI Hi); cbn [vgoto vset_th vset_wait c_wait h_done h_viol]; auto.
      + intros j Hj. rewrite vat_goto' by exact Hj. reflexivity.
      + intros l Q. rewrite vat_goto in Q. injection Q as <-. discriminate.
      + intros Q. rewrite vat_goto in Q. discriminate.
      + right. intros j Hj Hji Q. rewrite (x_hold s XI j Hj Q) in Qw. congruence.
    - destruct (c_lock s); [discriminate|]. injection H as <-.
      apply (xinv_goto s); try reflexivity; auto; discriminate.
    - injection H as <-. apply (xinv_goto s); try reflexivity; auto; discriminate.
    - injection H as <-. rewrite Hul by reflexivity. apply (xinv_goto s); try reflexivity; auto; discriminate.
    - injection H as <-. apply (xinv_goto s); try reflexivity; auto; discriminate.
    - destruct (func (c_world s)) as [r|] eqn:Qf; injection H as <-.
      + apply (xinv_goto s); try reflexivity; auto; discriminate.
      + apply (xinv_return s); try reflexivity; auto.
    - destruct (c_lock s); [discriminate|]. injection H as <-.
      apply (xinv_goto s); try reflexivity; auto; discriminate.
    - rewrite (ci_nov _ _ s I i _ Hi E eq_refl) in H. injection H as <-.
      apply (xinv_goto s); try reflexivity; auto; discriminate.
    - injection H as <-. apply (xinv_goto s); try reflexivity; auto; discriminate.
    - (* LC6 *) injection H as <-. apply (xinv_goto s); try reflexivity; auto; try discriminate.
      intros _. destruct (h_done s) eqn:Qd; [|reflexivity].
      pose proof (vv_done _ _ s VI Hc0 Qd). pose proof (ci_nov _ _ s I i _ Hi E eq_refl). congruence.
    - injection H as <-. apply (xinv_goto s); try reflexivity; auto; discriminate.
    - (* LC8 *) injection H as <-. pose proof (He eq_refl) as Qd.
      pose proof (ci_wait0 _ _ s I Qd) as Qw.
      assert (Hu : c_ths (vunwait i s) = c_ths s /\ c_wait (vunwait i s) = None /\
                   (h_viol (vunwait i s) = h_viol s \/ h_viol (vunwait i s) = VVWaitOther :: h_viol s /\ ctor <> i)).
      { unfold vunwait. rewrite Qw. destruct (Nat.eq_dec ctor i); cbn; auto. }
      destruct Hu as [U1 [U2 U3]].
      assert (Hlw : forall j, j < n -> vat s j <> Some LW2).
      { intros j Hj Q. pose proof (ci_W _ _ s I j _ Hj Q eq_refl). congruence. }
      apply (xinv_build s _ i XI Hi); cbn [vgoto vset_th vdone c_wait h_done h_viol]; auto.
      + intros j Hj. rewrite vat_goto' by exact Hj. unfold vat. cbn [vdone c_ths]. rewrite U1. reflexivity.
      + intros l Q. rewrite vat_goto in Q. injection Q as <-. discriminate.
      + intros Q. rewrite vat_goto in Q. discriminate.
      + right. intros j l Hj Hji Q. destruct (ending l) eqn:Qe; [|reflexivity]. exfalso. apply Hji.
        pose proof (ci_lock _ _ s I i _ Hi E eq_refl) as Q1.
        assert (Q2 : vcrit l = true) by (destruct l; try discriminate; reflexivity).
        rewrite (ci_lock _ _ s I j l Hj Q Q2) in Q1. congruence.
      + destruct U3 as [->|[-> Hne]]; [left; auto|]. right.
        destruct (x_viol s XI) as [Qv|[_ [Qv _]]]; [|congruence]. rewrite Qv. repeat split; auto. lia.
    - injection H as <-. apply (xinv_goto s); try reflexivity; auto; discriminate.
    - injection H as <-. rewrite Hul by reflexivity. apply (xinv_return s); try reflexivity; auto.
  Qed.

  Lemma xinv_exec : forall w progs s, vexec (vinit w progs) s -> calm s -> h_cleared s = false -> XInv s.
  Proof.
    intros w progs s H. remember (vinit w progs) as s0 eqn:E0.
    induction H as [s1|s1 s2 s3 i Hx IH Hi Hs]; intros Hc Hcl; [subst; apply xinv_init|].
    pose proof (calm_back func n s2 s3 i Hs Hc) as Hc2.
    assert (Hcl2 : h_cleared s2 = false).
    { destruct (h_cleared s2) eqn:Q; [|reflexivity]. exfalso. revert Hs Hcl Q. clear. intros Hs Hcl Q.
      unfold CVal.vstep in Hs. destruct (vt_at (c_ths s2 i)) as [l|] eqn:E.
      - pose proof (vs_cleared _ _ (vsame_unlock i s2)) as U. pose proof (vs_cleared _ _ (vsame_unwait i s2)) as X.
        destruct l; cbn [CVal.vcall_step] in Hs;
          repeat match type of Hs with
                 | match ?x with _ => _ end = _ => destruct x eqn:?; try discriminate
                 end; injection Hs as <-; cbn [vgoto vreturn vset_th h_cleared vdone vdie
                   vset_lock vset_wait vset_inproc vset_valid vset_value vstart] in Hcl;
          rewrite ?U, ?X in Hcl; try congruence.
        destruct (c_valid s2); cbn in Hcl; congruence.
      - destruct (vt_prog (c_ths s2 i)) as [|o rest]; [discriminate|].
        destruct o; injection Hs as <-; cbn in Hcl; congruence. }
    subst s1. eapply (xinv_step s2 s3 i); auto.
    - eapply cinv_exec; [apply cinv_init|exact Hx].
    - eapply valinv_exec; [exact Hx|exact Hc2].
  Qed.

  (** Every execution can be continued until nothing moves. *)
  Lemma vexec_trans : forall a b c, vexec a b -> vexec b c -> vexec a c.
  Proof.
    intros a b c Hab Hbc. induction Hbc; [exact Hab|].
    eapply vexec_step; [apply IHHbc; exact Hab|eassumption|eassumption].
  Qed.

  Lemma vrun_to_end : forall m s, vtodo n s <= m ->
    exists s', vexec s s' /\ forall i, i < n -> vstep i s' = None.
  Proof.
    induction m as [|m IH]; intros s Hm.
    - exists s. split; [apply vexec_refl|]. intros i Hi. destruct (vstep i s) as [s1|] eqn:Es; [|reflexivity].
      pose proof (vtodo_step func n s s1 i Hi Es). lia.
    - assert (Hdec : (forall i, i < n -> vstep i s = None) \/ exists i, i < n /\ vstep i s <> None).
      { clear. assert (Hall : forall p, p <= n -> (forall i, i < p -> vstep i s = None) \/
                                       exists i, i < n /\ vstep i s <> None).
        { induction p as [|p IHp]; intros Hp; [left; intros; lia|].
          destruct (IHp ltac:(lia)) as [Q|]; [|auto].
          destruct (vstep p s) eqn:Es; [right; exists p; split; [lia|congruence]|].
          left. intros i Hi. destruct (Nat.eq_dec i p) as [->|]; [exact Es|apply Q; lia]. }
        apply Hall. lia. }
      destruct Hdec as [Q|[i [Hi Q]]]; [exists s; split; [apply vexec_refl|exact Q]|].
      destruct (vstep i s) as [s1|] eqn:Es; [|congruence].
      pose proof (vtodo_step func n s s1 i Hi Es). destruct (IH s1 ltac:(lia)) as [s' [Hx Hs']].
      exists s'. split; [|exact Hs'].
      eapply vexec_trans; [|exact Hx]. eapply vexec_step; [apply vexec_refl|exact Hi|exact Es].
  Qed.
End P.
