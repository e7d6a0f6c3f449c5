(** * Many caches: the invariant holds, and every step brings the end nearer *)
From Coq Require Import List Bool Arith Lia.
From Verif Require Import Cache Cache_proofs CVal Nested Nested_spec Nested_proofs Nested_proofs2 Nested_proofs3.
Import ListNotations.

Section P.
  Context {O V K T : Type}.
  Variable odec : forall x y : O, {x = y} + {x <> y}.
  Variable kdec : forall x y : K, {x = y} + {x <> y}.
  Variable key : V -> K.
  Variable isnan : V -> bool.
  Variable dflt : T.
  Variable active : O -> bool.
  Variable is_value : O -> bool.
  Variable ctor : O -> nat.
  Variable body : O -> V -> @prog O V T.
  Variable uses : O -> O -> Prop.
  Variable h : O -> nat.
  Hypothesis Hf : follows body uses.
  Hypothesis Hh : forall o o', uses o o' -> h o' < h o.
  Hypothesis Hs : same_entry body key is_value.

  Notation prog := (@prog O V T).
  Notation act := (@act O V T).
  Notation nstate := (@nstate O V K T).
  Notation ostate := (@ostate V K T).
  Notation f := (@fn O V T body h dflt).
  Notation c := (@cs O V T body h dflt).
  Notation nstep := (@nstep O V K T odec kdec key isnan dflt active body).
  Notation move := (@move O V K T kdec key isnan dflt active).
  Notation OI := (@OI O V K T kdec key is_value ctor f).
  Notation NI := (@NI O V K T kdec key dflt is_value ctor body h).
  Notation okact := (@okact O V K T dflt body h).
  Notation pot := (@pot O V K T dflt body h).
  Notation wt := (@wt O V K T dflt body h).
  Notation ext := (@ext O V T dflt).
  Notation below := (@below O h).

  Lemma not_inside : forall G s i o a, NI G s -> n_tasks s i = Some a ->
    (forall v, a <> Inside o v) -> (forall v j, a <> Calc o v j) -> outside i (n_objs s o).
  Proof.
    intros G s i o a I E N1 N2. destruct (ni_out _ _ _ _ _ _ _ _ _ I o i) as [H|[v [H|[j H]]]]; [exact H| |];
      rewrite E in H; injection H as ->; exfalso; [eapply N1|eapply N2]; reflexivity.
  Qed.

  Lemma parts_length : forall b af (ps : list prog) m, length (parts b m af ps) = length ps.
  Proof. intros b af ps. induction ps as [|p ps IH]; intros m; cbn [parts length]; [reflexivity|]. rewrite IH. reflexivity. Qed.

  Lemma parts_nth : forall b af (ps : list prog) m x a, nth_error (parts b m af ps) x = Some a ->
    exists p, nth_error ps x = Some p /\ (a = Run p \/ exists q, q < m + x /\ a = After (b + q) p).
  Proof.
    intros b af ps. induction ps as [|p ps IH]; intros m x a E; [destruct x; discriminate|].
    destruct x as [|x]; cbn [parts nth_error] in E.
    - injection E as <-. exists p. split; [reflexivity|]. rewrite Nat.add_0_r.
      destruct (af m) as [q|]; [|auto]. destruct (Nat.ltb_spec q m); [right; exists q; auto|auto].
    - destruct (IH _ _ _ E) as [p' [E1 E2]]. exists p'. split; [exact E1|]. destruct E2 as [E2|[q [Hq E2]]]; [auto|].
      right. exists q. split; [lia|exact E2].
  Qed.

  Lemma collect_res : forall G s js rs, NI G s -> (forall j, In j js -> j < n_next s) -> collect s js = Some rs ->
    rs = map (res G) js.
  Proof.
    intros G s js rs I. revert rs. induction js as [|j js IH]; intros rs Hj E; cbn [collect map] in *.
    - congruence.
    - destruct (answer s j) as [r|] eqn:Ea; [|discriminate].
      destruct (collect s js) as [rs'|] eqn:Ec; [|discriminate]. injection E as <-.
      f_equal; [|apply IH; [intros; apply Hj; right; assumption|reflexivity]].
      unfold answer in Ea. destruct (ni_some _ _ _ _ _ _ _ _ _ I j (Hj j (or_introl eq_refl))) as [a [E Hok]].
      rewrite E in Ea. destruct a; try discriminate. injection Ea as <-. exact Hok.
  Qed.

  Lemma answer_res : forall G s j r, NI G s -> j < n_next s -> answer s j = Some r -> r = res G j.
  Proof.
    intros G s j r I Hj E. assert (H := collect_res G s [j] [r] I ltac:(intros x [<-|[]]; exact Hj)).
    cbn [collect map] in H. rewrite E in H. specialize (H eq_refl). congruence.
  Qed.

  Lemma sum_parts : forall (w : act -> nat) l ps,
    (forall x a, nth_error l x = Some a -> exists p, nth_error ps x = Some p /\ w a <= 1 + cost f c p) ->
    length l = length ps ->
    list_sum (map w l) <= fold_right (fun n m => 1 + n + m) 0 (map (cost f c) ps).
  Proof.
    intros w l. induction l as [|a l IH]; intros [|p ps] H E; try discriminate; [cbn; lia|].
    change (list_sum (map w (a :: l))) with (w a + list_sum (map w l)). cbn [map fold_right].
    assert (H1 := IH ps ltac:(intros x b Hx; exact (H (S x) b Hx)) ltac:(cbn in E; congruence)).
    destruct (H 0 a eq_refl) as [p' [E1 E2]]. cbn in E1. injection E1 as <-. lia.
  Qed.

  Lemma sum_nth : forall (w : nat -> act -> nat) (l : list act) b,
    list_sum (map (fun x => match nth_error l x with Some a => w (b + x) a | None => 0 end) (seq 0 (length l))) =
    list_sum (map (fun p => w (fst p) (snd p)) (combine (seq b (length l)) l)).
  Proof.
    intros w l. induction l as [|a l IH]; intros b; cbn [length seq map combine]; [reflexivity|].
    change (list_sum (?x :: ?l)) with (x + list_sum l). cbn [nth_error fst snd]. rewrite Nat.add_0_r. f_equal.
    rewrite <- IH. f_equal. rewrite <- seq_shift, map_map. apply map_ext. intros x. cbn [nth_error].
    replace (b + S x) with (S b + x) by lia. reflexivity.
  Qed.

  Lemma NI_settle : forall G s i o v os' a0, NI G s -> i < n_next s -> n_tasks s i = Some a0 ->
    tg G i = Call o v -> res G i = f o v ->
    OI o (n_next s) os' -> (forall j, j <> i -> kept j (n_objs s o) os') ->
    ((inside i v os' /\ nolog i os' /\ (forall a, where_ i os' <> Outside a)) \/
     (outside i os' /\ where_ i os' = Outside (Some (f o v)))) ->
    (forall o', o' <> o -> outside i (n_objs s o')) ->
    (inside i v os' -> wt G (upd odec (n_objs s) o os') i (Inside o v) < wt G (n_objs s) i a0) ->
    0 < wt G (n_objs s) i a0 ->
    exists G', agree (n_next s) G G' /\ NI G' (settle odec i o v os' s) /\ pot G' (settle odec i o v os' s) < pot G s.
  Proof.
    intros G s i o v os' a0 I Hi E Et Er HO Hkp Hend Hoth Hw1 Hw0. unfold settle.
    eapply (general0 kdec key dflt is_value ctor body h G s _ i a0 _ (upd odec (n_objs s) o os') I Hi E).
    - cbn [put n_tasks seto]. apply upd_same.
    - intros j Hj. cbn [put n_tasks seto]. apply upd_other. exact Hj.
    - reflexivity.
    - reflexivity.
    - intros o' j Hj. unfold upd. destruct (odec o' o) as [->|Hne]; [apply Hkp; exact Hj|apply kept_refl].
    - destruct Hend as [[H1 [H2 H3]]|[H1 H2]].
      + destruct (where_ i os') as [a| |]; [exfalso; eapply H3; reflexivity| |]; cbn [okact]; rewrite upd_same; auto.
      + rewrite H2. cbn [okact]. congruence.
    - intros o'. destruct (odec o' o) as [->|Hne].
      + rewrite upd_same. destruct Hend as [[H1 [H2 H3]]|[H1 H2]]; [|auto].
        right. exists v. left. destruct (where_ i os') as [a| |]; [exfalso; eapply H3; reflexivity| |]; reflexivity.
      + left. rewrite upd_other by exact Hne. apply Hoth. exact Hne.
    - intros o'. unfold upd. destruct (odec o' o) as [->|Hne]; [exact HO|apply (ni_obj _ _ _ _ _ _ _ _ _ I)].
    - destruct Hend as [[H1 [H2 H3]]|[H1 H2]].
      + destruct (where_ i os') as [a| |]; [exfalso; eapply H3; reflexivity| |]; apply Hw1; exact H1.
      + rewrite H2. exact Hw0.
  Qed.

  Theorem NI_step : forall G s s' i af, NI G s -> nstep i af s = Some s' ->
    exists G', agree (n_next s) G G' /\ NI G' s' /\ pot G' s' < pot G s.
  Proof.
    intros G s s' i af I H. unfold Nested.nstep in H.
    destruct (n_tasks s i) as [a0|] eqn:E; [|discriminate].
    assert (Hi : i < n_next s).
    { destruct (Nat.lt_ge_cases i (n_next s)) as [Hlt|Hge]; [exact Hlt|].
      rewrite (ni_none _ _ _ _ _ _ _ _ _ I i Hge) in E. discriminate. }
    destruct (ni_some _ _ _ _ _ _ _ _ _ I i Hi) as [a1 [E1 Hok]]. rewrite E in E1. injection E1 as <-.
    pose proof (ni_obj _ _ _ _ _ _ _ _ _ I) as Hobj.
    assert (Hnot : forall o, (forall v, a0 <> Inside o v) -> (forall v j, a0 <> Calc o v j) -> outside i (n_objs s o)).
    { intros o. apply (not_inside G s i o a0 I E). }
    assert (Hput : forall a, s' = put i a s -> okact G (n_objs s) (n_next s) i a ->
      (forall o, outside i (n_objs s o)) -> wt G (n_objs s) i a < wt G (n_objs s) i a0 ->
      exists G', agree (n_next s) G G' /\ NI G' s' /\ pot G' s' < pot G s).
    { intros a -> Hoka Hout Hw.
      eapply (general0 kdec key dflt is_value ctor body h G s _ i a0 a (n_objs s) I Hi E); auto.
      - cbn [put n_tasks]. apply upd_same.
      - intros j Hj. cbn [put n_tasks]. apply upd_other. exact Hj.
      - intros. apply kept_refl. }
    destruct a0 as [p|q p|q k|js k|o v|o v q|r]; [destruct p as [r|o v k|ps k]| | | | | |discriminate].
    - (* Ret *)
      injection H as <-. destruct Hok as [b [m [_ [_ Hr]]]]. eapply Hput; [reflexivity| | |].
      + cbn [okact]. exact Hr.
      + intros o. apply Hnot; discriminate.
      + cbn. lia.
    - (* Ask *)
      injection H as <-. destruct Hok as [b [m [Ht [Ha Hr]]]].
      inversion Ha as [|o0 v0 k0 Po Ak|]; subst o0 v0 k0.
      set (N := n_next s) in *. set (gl := [(f o v, Call o v)]).
      assert (HoN : forall o', outside N (n_objs s o')).
      { intros o'. destruct (ni_out _ _ _ _ _ _ _ _ _ I o' N) as [Ho|[v' [Ho|[j Ho]]]]; [exact Ho| |];
          rewrite (ni_none _ _ _ _ _ _ _ _ _ I N (le_n _)) in Ho; discriminate. }
      destruct (ext_new dflt N G gl 0 (f o v) (Call o v) eq_refl) as [Rn Tn]. rewrite Nat.add_0_r in Rn, Tn.
      destruct (ext_agree dflt N G gl i Hi) as [Ri Ti].
      destruct (enter_inside N v (n_objs s o)) as [En1 En2].
      exists (ext N G gl). split; [apply ext_agree|].
      eapply (general kdec key dflt is_value ctor body h G s _ i (Run (Ask o v k)) (WaitOne N k)
                (upd odec (n_objs s) o (enter N v (n_objs s o))) [Inside o v] gl I Hi E).
      + cbn [put n_tasks]. apply upd_same.
      + intros j Hj HN. cbn [put new seto n_tasks n_next]. rewrite upd_other by exact Hj.
        apply Nat.ltb_lt in HN. rewrite HN. reflexivity.
      + intros x. cbn [put new seto n_tasks n_next]. fold N. rewrite upd_other by lia.
        replace (N + x <? N) with false by (symmetry; apply Nat.ltb_ge; lia). f_equal. lia.
      + reflexivity.
      + reflexivity.
      + reflexivity.
      + intros o' j Hj HN. unfold upd. destruct (odec o' o) as [->|Hne]; [apply enter_kept; fold N in HN; lia|apply kept_refl].
      + cbn [okact length]. exists b, m, o, v. fold N. rewrite Ti, Ri, Rn, Tn.
        split; [exact Ht|]. split; [reflexivity|]. split; [exact Po|]. split; [lia|]. split; [reflexivity|].
        split; [exact Hr|]. exact Ak.
      + intros x a Ex. destruct x as [|[|x]]; try discriminate. injection Ex as <-. fold N. rewrite Nat.add_0_r.
        cbn [okact]. rewrite upd_same, Rn, Tn. split; [reflexivity|]. split; [reflexivity|].
        split; [exact En1|]. apply enter_nolog. apply (ni_log _ _ _ _ _ _ _ _ _ I). lia.
      + intros o'. left. assert (Ho : outside i (n_objs s o')) by (apply Hnot; discriminate).
        unfold upd. destruct (odec o' o) as [->|Hne]; [|exact Ho].
        eapply kept_outside; [apply enter_kept; lia|exact Ho].
      + intros o' j Hj. destruct (odec o' o) as [->|Hne].
        * destruct (Nat.eq_dec j N) as [->|Hj'].
          -- right. exists v. fold N. rewrite Nat.sub_diag. reflexivity.
          -- left. rewrite upd_same. eapply kept_outside; [apply enter_kept; exact Hj'|].
             destruct (ni_out _ _ _ _ _ _ _ _ _ I o j) as [Ho|[v' [Ho|[x Ho]]]]; [exact Ho| |];
               rewrite (ni_none _ _ _ _ _ _ _ _ _ I j Hj) in Ho; discriminate.
        * left. rewrite upd_other by exact Hne.
          destruct (ni_out _ _ _ _ _ _ _ _ _ I o' j) as [Ho|[v' [Ho|[x Ho]]]]; [exact Ho| |];
            rewrite (ni_none _ _ _ _ _ _ _ _ _ I j Hj) in Ho; discriminate.
      + intros o' j Hj. cbn [length] in Hj. fold N in Hj. unfold upd. destruct (odec o' o) as [->|Hne].
        * eapply kept_nolog; [apply enter_kept; lia|]. apply (ni_log _ _ _ _ _ _ _ _ _ I). fold N. lia.
        * apply (ni_log _ _ _ _ _ _ _ _ _ I). fold N. lia.
      + intros o'. cbn [length]. fold N. unfold upd. destruct (odec o' o) as [->|Hne].
        * replace (N + 1) with (S N) by lia. apply OI_enter; [apply Hobj|apply HoN].
        * eapply OI_more; [|apply Hobj]. fold N. lia.
      + intros x r b' m' Ex. destruct x as [|[|x]]; discriminate.
      + cbn [length seq map nth_error]. fold N. rewrite Nat.add_0_r.
        change (list_sum [?x]) with (x + 0). cbn [wt]. rewrite upd_same, Rn.
        pose proof (enter_work N v (n_objs s o)) as W.
        cbn [cost]. rewrite (cs_eq body uses h dflt Hf Hh o v).
        destruct (oahead N (enter N v (n_objs s o))); lia.
    - (* Par *)
      injection H as <-. destruct Hok as [b [m [Ht [Ha Hr]]]].
      inversion Ha as [| |ps0 k0 Aps Ak]; subst ps0 k0.
      set (N := n_next s) in *. set (gl := map (fun p => (eval f p, Code (O:=O) (V:=V) b (Some i))) ps).
      assert (Hnew : forall x p, nth_error ps x = Some p ->
        res (ext N G gl) (N + x) = eval f p /\ tg (ext N G gl) (N + x) = Code b (Some i)).
      { intros x p Ex. apply ext_new. unfold gl. rewrite nth_error_map, Ex. reflexivity. }
      destruct (ext_agree dflt N G gl i Hi) as [Ri Ti].
      assert (Emap : map (res (ext N G gl)) (seq N (length ps)) = map (eval f) ps).
      { clear - Hnew. assert (Hx : forall l b0, (forall x p, nth_error l x = Some p -> res (ext N G gl) (N + b0 + x) = eval f p) ->
          map (res (ext N G gl)) (seq (N + b0) (length l)) = map (eval f) l).
        { induction l as [|p l IH]; intros b0 Hx; cbn [length seq map]; [reflexivity|]. f_equal.
          - rewrite <- (Hx 0 p eq_refl). f_equal. lia.
          - replace (S (N + b0)) with (N + S b0) by lia. apply IH. intros x q Eq. rewrite <- (Hx (S x) q Eq). f_equal. lia. }
        specialize (Hx ps 0). rewrite Nat.add_0_r in Hx. apply Hx. intros x p Ex. apply (Hnew x p Ex). }
      eapply (general1 kdec key dflt is_value ctor body h G s i _ (WaitAll (seq N (length ps)) k)
               (parts N 0 af ps) gl I Hi E); fold N; rewrite ?parts_length.
      + unfold gl. apply map_length.
      + cbn [okact]. exists b, m. rewrite Ti, Ri, Emap. split; [exact Ht|]. split; [|split; [exact Hr|exact Ak]].
        intros j Hj. apply in_seq in Hj. split; [lia|].
        destruct (nth_error ps (j - N)) as [p|] eqn:Ep.
        * replace j with (N + (j - N)) by lia. apply (Hnew _ _ Ep).
        * apply nth_error_None in Ep. lia.
      + intros x a Ex. destruct (parts_nth N af ps 0 x a Ex) as [p [Ep Hp]]. destruct (Hnew x p Ep) as [Rx Tx].
        assert (Ap : asks_only (below b) p).
        { rewrite Forall_forall in Aps. apply Aps. eapply nth_error_In. exact Ep. }
        destruct Hp as [-> |[q [Hq ->]]]; cbn [okact].
        * exists b, (Some i). auto.
        * exists b, i. rewrite Rx, Tx. repeat (split; [assumption || reflexivity|]). split; [lia|].
          destruct (nth_error ps q) as [p'|] eqn:Eq; [apply (Hnew _ _ Eq)|].
          apply nth_error_None in Eq. assert (x < length ps) by (apply nth_error_Some; congruence). lia.
      + intros o. left. apply Hnot; discriminate.
      + intros x r b' m' Ex. unfold gl in Ex. rewrite nth_error_map in Ex.
        destruct (nth_error ps x); cbn in Ex; [|discriminate]. injection Ex as _ _ <-. lia.
      + cbn [Nested_proofs3.wt]. rewrite Emap. cbn [cost].
        assert (Hsum : list_sum (map (fun x => match nth_error (parts N 0 af ps) x with
                   | Some b0 => wt (ext N G gl) (n_objs s) (N + x) b0 | None => 0 end) (seq 0 (length ps))) <=
                 fold_right (fun n m => 1 + n + m) 0 (map (cost f c) ps)).
        { rewrite <- (parts_length N af ps 0) at 1.
          rewrite (sum_nth (fun x a => wt (ext N G gl) (n_objs s) x a)).
          assert (Hw : map (fun p => wt (ext N G gl) (n_objs s) (fst p) (snd p))
                       (combine (seq N (length (parts N 0 af ps))) (parts N 0 af ps)) =
                     map (wt (ext N G gl) (n_objs s) 0) (parts N 0 af ps)).
          { assert (Hall : forall a, In a (parts N 0 af ps) -> forall x y, wt (ext N G gl) (n_objs s) x a = wt (ext N G gl) (n_objs s) y a).
            { intros a Hin x y. apply In_nth_error in Hin. destruct Hin as [z Ez].
              destruct (parts_nth N af ps 0 z a Ez) as [p [_ [-> |[q [_ ->]]]]]; reflexivity. }
            clear - Hall. revert Hall. generalize (ext N G gl) as G'. intros G'. generalize (parts N 0 af ps) as l.
            generalize N as b0. intros b0 l. revert b0.
            induction l as [|a l IH]; intros b0 Hall; cbn [length seq combine map fst snd]; [reflexivity|].
            f_equal; [apply Hall; left; reflexivity|]. apply IH. intros a' Ha'. apply Hall. right. exact Ha'. }
          rewrite Hw. apply sum_parts; [|apply parts_length].
          intros x a Ex. destruct (parts_nth N af ps 0 x a Ex) as [p [Ep [-> |[q [_ ->]]]]]; exists p; cbn [Nested_proofs3.wt]; split; try exact Ep; lia. }
        lia.
    - (* After *)
      destruct (answer s q); [|discriminate]. injection H as <-.
      destruct Hok as [b [m [Ht [Ha [Hr _]]]]]. eapply Hput; [reflexivity| | |].
      + cbn [okact]. exists b, (Some m). auto.
      + intros o. apply Hnot; discriminate.
      + cbn [Nested_proofs3.wt]. lia.
    - (* WaitOne *)
      destruct (answer s q) as [r|] eqn:Ea; [|discriminate]. injection H as <-.
      destruct Hok as [b [m [o [v [Ht [_ [_ [Hj [Hq [Hr Ak]]]]]]]]]].
      assert (Er := answer_res G s q r I ltac:(lia) Ea). subst r.
      eapply Hput; [reflexivity| | |].
      + cbn [okact]. exists b, m. rewrite Hq. auto.
      + intros o'. apply Hnot; discriminate.
      + cbn [Nested_proofs3.wt]. lia.
    - (* WaitAll *)
      destruct (collect s js) as [rs|] eqn:Ea; [|discriminate]. injection H as <-.
      destruct Hok as [b [m [Ht [Hj [Hr Ak]]]]].
      assert (Er := collect_res G s js rs I ltac:(intros j Hin; destruct (Hj j Hin); lia) Ea). subst rs.
      eapply Hput; [reflexivity| | |].
      + cbn [okact]. exists b, m. auto.
      + intros o'. apply Hnot; discriminate.
      + cbn [Nested_proofs3.wt]. lia.
    - (* Inside *)
      destruct Hok as [Ht [Hr [Hin Hnl]]].
      assert (Hoth : forall o', o' <> o -> outside i (n_objs s o')).
      { intros o' Hne. apply Hnot; congruence. }
      destruct (where_ i (n_objs s o)) as [a| |] eqn:Ew; [discriminate| |].
      + destruct (move i o dflt (n_objs s o)) as [os'|] eqn:Em; [|discriminate]. injection H as <-.
        destruct (OI_move kdec key isnan dflt active is_value ctor f (f_same key dflt is_value body uses h Hf Hh Hs)
                   o _ _ os' i v dflt (Hobj o) Hi Hin Hnl ltac:(congruence) Em) as [M1 [M2 [M3 [M4 M5]]]].
        eapply NI_settle; try eassumption.
        * intros _. cbn [Nested_proofs3.wt]. rewrite upd_same.
          destruct (oahead i os'); [destruct (M4 eq_refl) as [-> _]; lia|]. destruct (oahead i (n_objs s o)); lia.
        * cbn [Nested_proofs3.wt]. lia.
      + injection H as <-. set (N := n_next s) in *. set (gl := [(f o v, Code (O:=O) (V:=V) (Some (h o)) None)]).
        destruct (ext_new dflt N G gl 0 (f o v) _ eq_refl) as [Rn Tn]. rewrite Nat.add_0_r in Rn, Tn.
        destruct (ext_agree dflt N G gl i Hi) as [Ri Ti].
        eapply (general1 kdec key dflt is_value ctor body h G s i _ (Calc o v N) [Run (body o v)] gl I Hi E);
          fold N; cbn [length].
        * reflexivity.
        * cbn [okact]. rewrite Ri, Ti, Rn, Tn. repeat (split; [assumption|]). split; [lia|]. auto.
        * intros x a Ex. destruct x as [|[|x]]; try discriminate. injection Ex as <-. rewrite Nat.add_0_r.
          cbn [okact]. exists (Some (h o)), None. rewrite Rn, Tn. split; [reflexivity|].
          split; [apply (body_below body uses h Hf Hh)|]. symmetry. apply (fn_eq body uses h dflt Hf Hh).
        * intros o'. destruct (odec o' o) as [->|Hne]; [right; exists v; right; exists N; reflexivity|].
          left. apply Hoth. exact Hne.
        * intros x r b m Ex. destruct x as [|[|x]]; discriminate.
        * cbn [seq map nth_error]. rewrite Nat.add_0_r. change (list_sum [?x]) with (x + 0).
          cbn [Nested_proofs3.wt]. rewrite (calc_ahead _ _ Ew). lia.
    - (* Calc *)
      destruct Hok as [Ht [Hr [Hin [Hnl [Ew [Hj [_ Hq]]]]]]].
      assert (Hoth : forall o', o' <> o -> outside i (n_objs s o')).
      { intros o' Hne. apply Hnot; congruence. }
      destruct (answer s q) as [r|] eqn:Ea; [|discriminate].
      assert (Er := answer_res G s q r I ltac:(lia) Ea). rewrite Hq in Er.
      destruct (move i o r (n_objs s o)) as [os'|] eqn:Em; [|discriminate]. injection H as <-.
      destruct (OI_move kdec key isnan dflt active is_value ctor f (f_same key dflt is_value body uses h Hf Hh Hs)
                 o _ _ os' i v r (Hobj o) Hi Hin Hnl ltac:(auto) Em) as [M1 [M2 [M3 [M4 M5]]]].
      eapply NI_settle; try eassumption.
      + intros _. cbn [Nested_proofs3.wt]. rewrite upd_same.
        destruct (oahead i os'); [destruct (M4 eq_refl); contradiction|]. lia.
      + cbn [Nested_proofs3.wt]. lia.
  Qed.
End P.
