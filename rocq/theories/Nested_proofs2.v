(** * One cache among many: what a step inside [operator()] does *)
From Coq Require Import List Bool Arith Lia.
From Verif Require Import Cache Cache_proofs Cache_proofs2 Cache_proofs3 Cache_proofs4 Cache_proofs5 Cache_proofs6
  CVal CVal_proofs CVal_proofs2 Nested Nested_spec.
Import ListNotations.

Section P.
  Context {O V K T : Type}.
  Variable odec : forall x y : O, {x = y} + {x <> y}.
  Variable kdec : forall x y : K, {x = y} + {x <> y}.
  Variable key : V -> K.
  Variable isnan : V -> bool.
  Variable dflt : T.
  Variable active : O -> bool.
  Variable is_value : O -> bool.
  Variable ctor : O -> nat.
  (** The right answers. *)
  Variable f : O -> V -> T.
  Hypothesis Hk : forall o v v', is_value o = true \/ key v = key v' -> f o v = f o v'.

  Notation ostate := (@ostate V K T).
  Notation state := (@Cache.state V K T unit).
  Notation vstate := (@CVal.vstate T unit).
  Notation move := (@move O V K T kdec key isnan dflt active).

  (** What the calculation gives, as [Cache.v] and [CVal.v] see it. *)
  Definition ffun (o : O) : unit -> V -> option T := fun _ v => Some (f o v).
  Definition vfun (t : T) : unit -> option T := fun _ => Some t.

  (** Task [i] is inside a call for [v]. *)
  Definition inside (i : nat) (v : V) (os : ostate) : Prop :=
    match os with
    | OFun s => exists l, th_at (s_ths s i) = Some (v, l)
    | OVal s => exists l, vt_at (c_ths s i) = Some l
    end.
  Definition outside (i : nat) (os : ostate) : Prop :=
    match os with
    | OFun s => th_at (s_ths s i) = None
    | OVal s => vt_at (c_ths s i) = None
    end.
  (** It has not returned from a call. *)
  Definition nolog (i : nat) (os : ostate) : Prop :=
    match os with
    | OFun s => th_log (s_ths s i) = []
    | OVal s => vt_log (c_ths s i) = []
    end.

  (** The state of a cache that tasks below [N] use. *)
  Definition OIf (o : O) (N : nat) (s : state) : Prop :=
    (forall n, N <= n -> Inv kdec key n s /\ VInv kdec key (ffun o) n s) /\
    g_overlap s = false /\ (forall k, g_dead s k = false) /\ forall j, th_prog (s_ths s j) = [].
  Definition OIv (o : O) (N : nat) (s : vstate) : Prop :=
    (forall n, N <= n -> CInv (ctor o) n s /\ forall v0, ValInv (vfun (f o v0)) n s) /\
    h_overlap s = false /\ h_dead s = false /\ h_cleared s = false /\
    forall j, vt_prog (c_ths s j) = [].
  Definition OI (o : O) (N : nat) (os : ostate) : Prop :=
    match os with
    | OFun s => is_value o = false /\ OIf o N s
    | OVal s => is_value o = true /\ OIv o N s
    end.

  Lemma OI_more : forall o N N' os, N <= N' -> OI o N os -> OI o N' os.
  Proof.
    intros o N N' [s|s] HN [H1 [H2 H3]]; (split; [exact H1|]); (split; [|exact H3]);
      intros n Hn; apply H2; lia.
  Qed.

  Lemma OI_init : forall o N, OI o N (if is_value o then OVal (vinit dflt (ctor o) tt (fun _ => []))
                                      else OFun (init tt (fun _ => []))).
  Proof.
    intros o N. destruct (is_value o) eqn:E; (split; [exact E|]).
    - split; [|repeat split]. intros n _. split; [apply cinv_init|]. intros v0. apply valinv_init.
    - split; [|repeat split]. intros n _. split; [apply inv_init|]. apply vinv_init.
  Qed.

  Lemma OI_sound : forall o N os, OI o N os -> sound kdec os.
  Proof.
    intros o N [s|s] [_ [H _]]; destruct (H N (le_n N)) as [H1 H2]; cbn [sound].
    - split; [apply (inv_viol _ _ _ _ H1)|]. apply (v_once _ _ _ _ _ H2).
    - split; [apply (ci_once _ _ _ H1)|]. apply (ci_viol _ _ _ H1).
  Qed.

  (** ** Entering *)
  Lemma OI_enter : forall o N v os, OI o N os -> outside N os -> OI o (S N) (enter N v os).
  Proof.
    intros o N v [s|s] [Hv [H [Ho [Hd Hp]]]] Hout; cbn [enter OI outside] in *; (split; [exact Hv|]).
    - split; [|split; [exact Ho|split; [exact Hd|]]].
      2:{ intros j. cbn [goto s_ths]. unfold upd. destruct (Nat.eq_dec j N); cbn [th_prog]; apply Hp. }
      intros n Hn. destruct (H n ltac:(lia)) as [I VI]. split.
      + apply (inv_outside kdec key n s _ N (Some (v, P0)) I); try reflexivity; try lia.
        * exact Hout.
        * intros j Hj. apply at_goto'. exact Hj.
        * apply at_goto.
        * right. exists v. reflexivity.
        * auto.
      + apply (vinv_build kdec key (ffun o) n s _ N I VI); cbn [goto s_world g_worlds s_cache g_starts g_dead];
          auto; try lia.
        * intros j Hj. apply at_goto'. exact Hj.
        * apply (v_world _ _ _ _ s VI).
        * apply incl_refl.
        * intros v' l r E. rewrite at_goto in E. injection E as <- <-. discriminate.
        * intros v' l E. rewrite at_goto in E. injection E as <- <-. discriminate.
        * intros k Hk'. left. split; [exact Hk'|]. unfold at_. rewrite Hout. discriminate.
        * intros k. unfold at_. rewrite Hout. discriminate.
        * intros v' l E. rewrite at_goto in E. injection E as <- <-. discriminate.
        * intros j Hj. cbn [goto s_ths]. rewrite upd_other by exact Hj. reflexivity.
        * left. cbn [goto s_ths]. rewrite upd_same. reflexivity.
    - split; [|split; [exact Ho|split; [exact Hd|split; [apply Hp|]]]].
      2:{ intros j. unfold vgoto, vset_th. cbn [c_ths]. unfold upd. destruct Hp as [_ Hp].
          destruct (Nat.eq_dec j N); cbn [vt_prog]; apply Hp. }
      intros n Hn. destruct (H n ltac:(lia)) as [I VI]. split.
      + apply (cinv_move (ctor o) n s _ N (Some L0) I); unfold vat; rewrite ?Hout; try reflexivity; try lia; try discriminate.
        * intros j Hj. apply vat_goto'. exact Hj.
        * apply vat_goto.
        * intros l' E. injection E as <-. cbn. repeat split; discriminate.
      + intros v0. specialize (VI v0).
        apply (valinv_build (vfun (f o v0)) n s _ N VI); unfold vgoto, vset_th;
          cbn [c_ths c_world h_worlds c_valid c_value h_cleared h_done]; auto; try lia.
        * intros j Hj. apply upd_other. exact Hj.
        * apply (vv_world _ _ _ VI).
        * apply incl_refl.
        * apply (vv_value _ _ _ VI).
        * intros l' E. unfold vat in E. cbn [c_ths] in E. rewrite upd_same in E. injection E as <-.
          cbn. repeat split; intros; discriminate.
        * left. rewrite upd_same. reflexivity.
  Qed.

  Lemma enter_inside : forall N v os, inside N v (enter N v os) /\ where_ N (enter N v os) = Busy.
  Proof.
    intros N v [s|s]; cbn [enter inside where_].
    - unfold goto. cbn [s_ths]. rewrite upd_same. split; [eexists; reflexivity|reflexivity].
    - unfold vgoto, vset_th. cbn [c_ths]. rewrite upd_same. split; [eexists; reflexivity|reflexivity].
  Qed.

  (** The same for the other tasks. *)
  Definition kept (j : nat) (os os' : ostate) : Prop :=
    match os, os' with
    | OFun s, OFun s' => s_ths s' j = s_ths s j
    | OVal s, OVal s' => c_ths s' j = c_ths s j
    | _, _ => False
    end.

  Lemma enter_kept : forall N v os j, j <> N -> kept j os (enter N v os).
  Proof.
    intros N v [s|s] j Hj; cbn [enter kept].
    - unfold goto. cbn [s_ths]. apply upd_other. exact Hj.
    - unfold vgoto, vset_th. cbn [c_ths]. apply upd_other. exact Hj.
  Qed.

  Lemma enter_nolog : forall N v os, nolog N os -> nolog N (enter N v os).
  Proof.
    intros N v [s|s] H; cbn [enter nolog] in *.
    - unfold goto. cbn [s_ths]. rewrite upd_same. exact H.
    - unfold vgoto, vset_th. cbn [c_ths]. rewrite upd_same. exact H.
  Qed.

  Lemma kept_inside : forall j v os os', kept j os os' -> inside j v os -> inside j v os'.
  Proof. intros j v [s|s] [s'|s'] H; cbn in *; try contradiction; rewrite H; auto. Qed.
  Lemma kept_outside : forall j os os', kept j os os' -> outside j os -> outside j os'.
  Proof. intros j [s|s] [s'|s'] H; cbn in *; try contradiction; rewrite H; auto. Qed.
  Lemma kept_nolog : forall j os os', kept j os os' -> nolog j os -> nolog j os'.
  Proof. intros j [s|s] [s'|s'] H; cbn in *; try contradiction; rewrite H; auto. Qed.
  Lemma kept_where : forall j os os', kept j os os' -> where_ j os' = where_ j os.
  Proof. intros j [s|s] [s'|s'] H; cbn in *; try contradiction; rewrite H; auto. Qed.

  (** ** Steps left, and whether the calculation may still be ahead *)
  Definition ahead (l : @label T) : bool :=
    match l with
    | P0 | P1 | P2 | P3 | C0 | C1 | C2 | C3 | C4 | C4b | Q0 | Q1 => true
    | _ => false
    end.
  Definition vahead (l : @vlabel T) : bool :=
    match l with L0 | L1 | L2 | LC0 | LC1 | LC2 | LC2b => true | _ => false end.
  Definition owork (i : nat) (os : ostate) : nat :=
    match os with
    | OFun s => match th_at (s_ths s i) with Some (_, l) => rank l | None => 0 end
    | OVal s => match vt_at (c_ths s i) with Some l => vrank l | None => 0 end
    end.
  Definition oahead (i : nat) (os : ostate) : bool :=
    match os with
    | OFun s => match th_at (s_ths s i) with Some (_, l) => ahead l | None => false end
    | OVal s => match vt_at (c_ths s i) with Some l => vahead l | None => false end
    end.

  Lemma kept_work : forall j os os', kept j os os' -> owork j os' = owork j os /\ oahead j os' = oahead j os.
  Proof. intros j [s|s] [s'|s'] H; cbn in *; try contradiction; rewrite H; auto. Qed.

  Lemma enter_work : forall N v os, owork N (enter N v os) <= 17.
  Proof.
    intros N v [s|s]; cbn [enter owork].
    - unfold goto. cbn [s_ths]. rewrite upd_same. cbn. lia.
    - unfold vgoto, vset_th. cbn [c_ths]. rewrite upd_same. cbn. lia.
  Qed.

  Lemma calc_ahead : forall i os, where_ i os = AtCalc -> oahead i os = true.
  Proof.
    intros i [s|s]; cbn [where_ oahead].
    - destruct (th_at (s_ths s i)) as [[v []]|]; discriminate || reflexivity.
    - destruct (vt_at (c_ths s i)) as [[]|]; discriminate || reflexivity.
  Qed.

  (** ** One step inside [operator()] *)

  Lemma call_step_func : forall g g' a i (s : state) v l, (l = C4b \/ l = Q1 -> g tt v = g' tt v) ->
    call_step kdec key isnan g dflt a i s v l = call_step kdec key isnan g' dflt a i s v l.
  Proof.
    intros g g' a i s v l H. destruct l; try reflexivity; cbn [call_step]; destruct (s_world s);
      rewrite H by auto; reflexivity.
  Qed.

  Lemma vcall_step_func : forall g g' i (s : vstate) l, (l = LC2b -> g tt = g' tt) ->
    vcall_step g i s l = vcall_step g' i s l.
  Proof.
    intros g g' i s l H. destruct l; try reflexivity; cbn [vcall_step]; destruct (c_world s);
      rewrite H by auto; reflexivity.
  Qed.

  Lemma call_ahead : forall g a i (s s' : state) v l l' v',
    call_step kdec key isnan g dflt a i s v l = Some s' ->
    th_at (s_ths s' i) = Some (v', l') -> ahead l' = true -> ahead l = true /\ l <> C4b /\ l <> Q1.
  Proof.
    intros g a i s s' v l l' v' H.
    destruct l; cbn [Cache.call_step] in H;
      repeat match type of H with
             | match ?x with _ => _ end = _ => destruct x eqn:?; try discriminate
             end; injection H as <-; cbn [goto return_ s_ths]; rewrite upd_same; cbn [th_at];
      intros E; try discriminate E; injection E as <- <-; intros A; try discriminate A;
      try (repeat split; discriminate).
    - destruct (0 <? rec_count (key v) s); discriminate.
    - destruct (rec_count (key v) s =? 0); discriminate.
  Qed.

  (** The moving task after a step. *)
  Lemma call_shape : forall g a i (s s' : state) v l, (forall w v, g w v <> None) ->
    (forall k, g_dead s k = false) -> th_at (s_ths s i) = Some (v, l) ->
    call_step kdec key isnan g dflt a i s v l = Some s' ->
    (forall k, g_dead s' k = false) /\
    (forall j, j <> i -> s_ths s' j = s_ths s j) /\
    th_prog (s_ths s' i) = th_prog (s_ths s i) /\
    ((exists l', th_at (s_ths s' i) = Some (v, l') /\ th_log (s_ths s' i) = th_log (s_ths s i)) \/
     (th_at (s_ths s' i) = None /\ exists r ws,
        th_log (s_ths s' i) = th_log (s_ths s i) ++ [mkEntry v r ws])).
  Proof.
    intros g a i s s' v l Hg Hd E H.
    assert (Hs : step kdec key isnan g dflt a (S i) i s = Some s').
    { unfold Cache.step. rewrite E. exact H. }
    pose proof (alive_step kdec key isnan g dflt a (S i) Hg s s' i Hs Hd) as Hd'.
    split; [exact Hd'|].
    destruct (call_effect kdec key isnan g dflt a s i v l s' H) as [s0 l' Sm _| |r l' _ _|s0 r Sm _|];
      cbn [goto return_ s_ths th_prog th_at th_log start set_cache die].
    - rewrite (sm_ths _ _ Sm). split; [intros j Hj; apply upd_other; exact Hj|]. rewrite upd_same.
      cbn. split; [reflexivity|]. left. eexists. split; reflexivity.
    - split; [intros j Hj; apply upd_other; exact Hj|]. rewrite upd_same.
      cbn. split; [reflexivity|]. left. eexists. split; reflexivity.
    - split; [intros j Hj; apply upd_other; exact Hj|]. rewrite upd_same.
      cbn. split; [reflexivity|]. left. eexists. split; reflexivity.
    - rewrite (sm_ths _ _ Sm). split; [intros j Hj; apply upd_other; exact Hj|]. rewrite upd_same.
      cbn. split; [reflexivity|]. right. split; [reflexivity|]. eexists _, _. reflexivity.
    - exfalso. specialize (Hd' (key v)). cbn [return_ die g_dead] in Hd'. rewrite upd_same in Hd'. discriminate.
  Qed.

  Lemma vcall_shape : forall g i (s s' : vstate) l, (forall w, g w <> None) ->
    vcall_step g i s l = Some s' ->
    h_overlap s' = h_overlap s /\ h_dead s' = h_dead s /\ h_cleared s' = h_cleared s /\
    (forall j, j <> i -> c_ths s' j = c_ths s j) /\
    vt_prog (c_ths s' i) = vt_prog (c_ths s i) /\
    ((exists l', vt_at (c_ths s' i) = Some l' /\ vt_log (c_ths s' i) = vt_log (c_ths s i) /\
                 (vahead l' = true -> vahead l = true /\ l <> LC2b)) \/
     (vt_at (c_ths s' i) = None /\ exists e, vt_log (c_ths s' i) = vt_log (c_ths s i) ++ [e])).
  Proof.
    intros g i s s' l Hg H.
    pose proof (vsame_unlock i s) as [U0 _ _ _ _ U1 _ U2 U3].
    pose proof (vsame_unwait i s) as [X0 _ _ _ _ X1 _ X2 X3].
    assert (HG : forall (s0 : vstate) l', c_ths s0 = c_ths s -> h_overlap s0 = h_overlap s ->
      h_dead s0 = h_dead s -> h_cleared s0 = h_cleared s ->
      (vahead l' = true -> vahead l = true /\ l <> LC2b) ->
      let s' := vgoto i l' s0 in
      h_overlap s' = h_overlap s /\ h_dead s' = h_dead s /\ h_cleared s' = h_cleared s /\
      (forall j, j <> i -> c_ths s' j = c_ths s j) /\
      vt_prog (c_ths s' i) = vt_prog (c_ths s i) /\
      ((exists l', vt_at (c_ths s' i) = Some l' /\ vt_log (c_ths s' i) = vt_log (c_ths s i) /\
                   (vahead l' = true -> vahead l = true /\ l <> LC2b)) \/
       (vt_at (c_ths s' i) = None /\ exists e, vt_log (c_ths s' i) = vt_log (c_ths s i) ++ [e]))).
    { intros s0 l' E1 E2 E3 E4 Ha. unfold vgoto, vset_th. cbn. rewrite E1, upd_same. cbn.
      repeat (split; [assumption|]). split; [intros j Hj; apply upd_other; exact Hj|].
      split; [reflexivity|]. left. exists l'. auto. }
    destruct l; cbn [CVal.vcall_step] in H;
      repeat match type of H with
             | match ?x with _ => _ end = _ => destruct x eqn:?; try discriminate
             end; injection H as <-;
      try (apply HG; cbn; try assumption; try reflexivity;
           try (destruct (c_valid s); reflexivity);
           try (intros Q; discriminate Q);
           try (intros _; split; [reflexivity|discriminate]));
      try (destruct (c_valid s); discriminate).
    - exfalso. eapply Hg. eassumption.
    - unfold vreturn, vset_th. cbn. rewrite U0, upd_same. cbn. repeat (split; [assumption|]).
      split; [intros j Hj; apply upd_other; exact Hj|]. split; [reflexivity|]. right.
      split; [reflexivity|]. eexists. reflexivity.
  Qed.

  Theorem OI_move : forall o N os os' i v r, OI o N os -> i < N -> inside i v os -> nolog i os ->
    (where_ i os = AtCalc -> r = f o v) -> move i o r os = Some os' ->
    OI o N os' /\ (forall j, j <> i -> kept j os os') /\ owork i os' < owork i os /\
    (oahead i os' = true -> oahead i os = true /\ where_ i os <> AtCalc) /\
    ((inside i v os' /\ nolog i os' /\ (forall a, where_ i os' <> Outside a)) \/
     (outside i os' /\ where_ i os' = Outside (Some (f o v)))).
  Proof.
    intros o N [s|s] os' i v r [Hv [H [Ho [Hd Hp]]]] Hi [l E] Hl Hr Hm; cbn [Nested.move] in Hm; rewrite E in Hm;
      unfold nolog in Hl.
    - rewrite (call_step_func _ (ffun o)) in Hm.
      2:{ intros Hc. unfold ffun. f_equal. apply Hr. cbn [where_]. rewrite E. destruct Hc as [-> | ->]; reflexivity. }
      destruct (call_step kdec key isnan (ffun o) dflt (active o) i s v l) as [s'|] eqn:Hs; [|discriminate].
      injection Hm as <-.
      assert (Hg : forall w v, ffun o w v <> None) by discriminate.
      destruct (call_shape _ _ i s s' v l Hg Hd E Hs) as [D1 [D2 [D3 D4]]].
      assert (Hst : forall n, step kdec key isnan (ffun o) dflt (active o) n i s = Some s').
      { intros n. unfold Cache.step. rewrite E. exact Hs. }
      assert (Ho' : g_overlap s' = false).
      { rewrite (overlap_call _ _ _ _ _ _ _ _ _ _ _ Hs). exact Ho. }
      assert (HI : OIf o N s').
      { split; [|split; [exact Ho'|split; [exact D1|]]].
        - intros n Hn. destruct (H n Hn) as [I VI]. split.
          + eapply inv_step with (i:=i); [exact I|lia|apply Hst].
          + eapply vinv_step with (i:=i); [exact I|exact VI|lia|apply Hst|exact Ho'].
        - intros j. destruct (Nat.eq_dec j i) as [->|Hj]; [rewrite D3; apply Hp|].
          rewrite D2 by exact Hj. apply Hp. }
      split; [split; [exact Hv|exact HI]|]. split; [exact D2|].
      split.
      { destruct (work_step _ _ _ _ _ _ (S i) s s' i (Hst _)) as [_ W]. unfold work in W. rewrite D3, Hp in W.
        cbn [length owork] in *. lia. }
      split.
      { cbn [oahead where_]. destruct (th_at (s_ths s' i)) as [[v' l']|] eqn:E'; [|discriminate].
        intros A. rewrite E. destruct (call_ahead _ _ i s s' v l l' v' Hs E' A) as [A1 [A2 A3]].
        split; [exact A1|]. destruct l; try discriminate; congruence. }
      destruct D4 as [[l' [E' L']]|[E' [ra [ws L']]]].
      + left. cbn [inside nolog where_]. rewrite E', L'. split; [eexists; reflexivity|]. split; [exact Hl|].
        intros a. destruct l'; discriminate.
      + right. cbn [outside where_]. rewrite E', L', Hl. split; [reflexivity|]. cbn. f_equal.
        destruct HI as [HI _]. destruct (HI N (le_n N)) as [_ VI].
        assert (G : entry_good key (ffun o) (mkEntry v ra ws)).
        { eapply (v_log _ _ _ _ s' VI i); [exact Hi|]. rewrite L', Hl. left. reflexivity. }
        unfold entry_good, good in G. cbn [en_answer en_arg en_worlds] in G. destruct ra as [a|].
        * destruct G as [w [v' [_ [Ek Ef]]]]. unfold ffun in Ef. injection Ef as <-. f_equal. apply Hk. auto.
        * destruct G as [w [_ Ef]]. discriminate.
    - rewrite (vcall_step_func _ (vfun (f o v))) in Hm.
      2:{ intros Hc. unfold vfun. f_equal. apply Hr. cbn [where_]. rewrite E, Hc. reflexivity. }
      destruct (vcall_step (vfun (f o v)) i s l) as [s'|] eqn:Hs; [|discriminate].
      injection Hm as <-.
      assert (Hg : forall w, vfun (f o v) w <> None) by discriminate.
      destruct (vcall_shape _ i s s' l Hg Hs) as [S1 [S2 [S3 [D2 [D3 D4]]]]].
      assert (Hst : forall n, vstep (vfun (f o v)) n i s = Some s').
      { intros n. unfold CVal.vstep. rewrite E. exact Hs. }
      destruct Hp as [Hc Hp].
      assert (HI : OIv o N s').
      { split; [|split; [congruence|split; [congruence|split; [congruence|]]]].
        - intros n Hn. destruct (H n Hn) as [I VI]. split.
          + eapply cinv_step with (i:=i); [exact I|lia|apply Hst].
          + intros v0. rewrite (Hk o v0 v) by auto.
            eapply valinv_step with (i:=i); [exact I|apply VI|lia|apply Hst|].
            unfold calm. rewrite S1, S2, S3. auto.
        - intros j. destruct (Nat.eq_dec j i) as [->|Hj]; [rewrite D3; apply Hp|].
          rewrite D2 by exact Hj. apply Hp. }
      split; [split; [exact Hv|exact HI]|]. split; [exact D2|].
      split.
      { pose proof (vwork_step _ (S i) s s' i (Hst _)) as W. unfold vwork in W. rewrite D3, Hp in W.
        cbn [length owork] in *. lia. }
      destruct D4 as [[l' [E' [L' A']]]|[E' [e L']]].
      + split.
        { cbn [oahead where_]. rewrite E', E. intros A. destruct (A' A) as [A1 A2]. split; [exact A1|].
          destruct l; try discriminate; congruence. }
        left. cbn [inside nolog where_]. rewrite E', L'. split; [eexists; reflexivity|]. split; [exact Hl|].
        intros a. destruct l'; discriminate.
      + split; [cbn [oahead]; rewrite E'; discriminate|].
        right. cbn [outside where_]. rewrite E', L', Hl. split; [reflexivity|]. cbn. f_equal.
        destruct HI as [HI _]. destruct (HI N (le_n N)) as [_ VI].
        assert (G : ventry_good (vfun (f o v)) e).
        { eapply (vv_log _ _ _ (VI v) i); [exact Hi|]. rewrite L', Hl. left. reflexivity. }
        destruct G as [w [_ Ef]]. unfold vfun in Ef. congruence.
  Qed.

  (** At the calculation a task can always go on once it has the result. *)
  Lemma calc_moves : forall o i r os, where_ i os = AtCalc -> move i o r os <> None.
  Proof.
    intros o i r [s|s]; cbn [where_ Nested.move].
    - destruct (th_at (s_ths s i)) as [[v []]|]; discriminate.
    - destruct (vt_at (c_ths s i)) as [[]|]; discriminate.
  Qed.

  (** If somebody is inside, somebody can go on or is at the calculation. *)
  Theorem OI_progress : forall o N os j v, OI o N os -> j < N -> inside j v os ->
    exists i, i < N /\ (where_ i os = AtCalc \/ (where_ i os = Busy /\ forall r, move i o r os <> None)).
  Proof.
    intros o N [s|s] j v [Hv [H [Ho [Hd Hp]]]] Hj [l E]; destruct (H N (le_n N)) as [I VI].
    - destruct (progress kdec key isnan (ffun o) dflt (active o) N s I) as [Hno|[i [Hi Hs]]].
      { exfalso. destruct (Hno j Hj) as [[_ Q]|[v' [a [_ Q]]]]; [congruence|]. rewrite Hd in Q. discriminate. }
      exists i. split; [exact Hi|]. unfold Cache.step in Hs. rewrite Hp in Hs.
      cbn [where_ Nested.move]. destruct (th_at (s_ths s i)) as [[v' l']|] eqn:E'; [|congruence].
      assert (Hc : (l' = C4b \/ l' = Q1) \/ (l' <> C4b /\ l' <> Q1)).
      { destruct l'; auto; right; split; discriminate. }
      destruct Hc as [[-> | ->]|[N1 N2]]; [left; reflexivity|left; reflexivity|].
      right. split; [destruct l'; try reflexivity; congruence|]. intros r.
      rewrite (call_step_func _ (ffun o)) by (intros [-> | ->]; congruence).
      destruct (call_step kdec key isnan (ffun o) dflt (active o) i s v' l'); [discriminate|congruence].
    - destruct Hp as [Hc Hp].
      destruct (vprogress (vfun (f o v)) (ctor o) N s I) as [Hno|[i [Hi Hs]]].
      { exfalso. destruct (Hno j Hj) as [[_ Q]|[_ [_ Q]]]; congruence. }
      exists i. split; [exact Hi|]. unfold CVal.vstep in Hs. rewrite Hp in Hs.
      cbn [where_ Nested.move]. destruct (vt_at (c_ths s i)) as [l'|] eqn:E'; [|congruence].
      assert (Hl : l' = LC2b \/ l' <> LC2b) by (destruct l'; auto; right; discriminate).
      destruct Hl as [-> |N1]; [left; reflexivity|].
      right. split; [destruct l'; try reflexivity; congruence|]. intros r.
      rewrite (vcall_step_func _ (vfun (f o v))) by congruence.
      destruct (vcall_step (vfun (f o v)) i s l'); [discriminate|congruence].
  Qed.
End P.
