(** Proofs about 'analyze' and the files it writes. *)

Require Import String Ascii List Bool Lia.
From Verif Require Import Recorder Recorder_spec Paths Paths_spec Paths_proofs Analyze Analyze_spec.
Import ListNotations.

Lemma path_eqb_spec : forall a b, reflect (a = b) (path_eqb a b).
Proof.
  intros a b. unfold path_eqb.
  destruct (String.eqb_spec (string_of_list_ascii a) (string_of_list_ascii b)) as [E|E]; constructor.
  - rewrite <- (list_ascii_of_string_of_list_ascii a), <- (list_ascii_of_string_of_list_ascii b). now rewrite E.
  - intros ->. contradiction.
Qed.

Lemma app_slash : forall a b : path, a ++ [slash] = b ++ [slash] -> a = b.
Proof. intros a b E. apply app_inj_tail in E. tauto. Qed.

(** There is one file meant. *)
Lemma meant_unique : forall d p f f', meant d p f -> meant d p f' -> f = f'.
Proof.
  intros d p f f' [f0 [A1 [A2 A3]]] [f1 [B1 [B2 B3]]].
  assert (E : f0 = f1).
  { destruct (in_dec ascii_dec slash p) as [Hin|Hn].
    - rewrite (A1 Hin), (B1 Hin). reflexivity.
    - destruct (A2 Hn) as [[d' [E1 ->]]|[E1 ->]]; destruct (B2 Hn) as [[d2 [E2 ->]]|[E2 ->]]; auto.
      + now specialize (E2 d').
      + now specialize (E1 d2). }
  subst f1.
  specialize (A3 _ _ (head_tail_app p) (tail_none p)). specialize (B3 _ _ (head_tail_app p) (tail_none p)).
  assert (Hh : fst (head_tail p) = [] \/ (exists h', fst (head_tail p) = h' ++ [slash])) by apply head_end.
  destruct (A3 Hh) as [A4 A5]. destruct (B3 Hh) as [B4 B5].
  pose proof (extension_spec p _ _ (head_tail_app p) (tail_none p) Hh) as Hx.
  destruct (extension p) as [|c r].
  - assert (Hne : ~ has_extension (snd (head_tail p))) by (rewrite Hx; congruence).
    rewrite (A5 Hne), (B5 Hne). reflexivity.
  - assert (He : has_extension (snd (head_tail p))) by (rewrite Hx; congruence).
    rewrite (A4 He), (B4 He). reflexivity.
Qed.

Section Analyze.

Variable L : lib.

Lemma writes_to_iff : forall dir (e : entry L) n p, e_file e = Some n -> (writes_to dir e p <-> p = full_path dir n).
Proof.
  intros dir e n p E. split.
  - intros [n' [E' M]]. rewrite E in E'. injection E' as <-.
    exact (meant_unique _ _ _ _ M (path_meant dir n)).
  - intros ->. exists n. split; [exact E|apply path_meant].
Qed.

Lemma analyze_left : forall dir (d : defs L) f,
  Forall (fun e => e_file (snd e) <> None /\ exists lines, output (snd e) lines) d ->
  exists f', analyze dir f d = (f', None) /\ forall p, left_in dir p (map snd d) (f p) (f' p).
Proof.
  intros dir d. induction d as [|[id e] d IH]; intros f F.
  - exists f. split; [reflexivity|]. intros p. constructor.
  - inversion F as [|? ? [Hn [lines Ho]] F']; subst. cbn [snd] in *.
    destruct (e_file e) as [n|] eqn:En; [|contradiction].
    destruct (IH (write f (full_path dir n) (e_append e) lines) F') as [f' [E1 E2]].
    exists f'. cbn [analyze]. unfold run. rewrite En. unfold output in Ho. rewrite Ho. split; [exact E1|].
    intros p. specialize (E2 p). unfold write in E2. cbn [map snd].
    destruct (path_eqb_spec p (full_path dir n)) as [Ep|Ep].
    + destruct (e_append e) eqn:Ea.
      * eapply Left_append; eauto. now apply (writes_to_iff dir e n).
      * eapply Left_new; eauto. now apply (writes_to_iff dir e n).
    + apply Left_other; auto. rewrite (writes_to_iff dir e n p En). exact Ep.
Qed.

(** A recorder that fails: those before it have written, it itself what it printed
    until then, those after it nothing. *)
Lemma analyze_stops : forall dir (a b : defs L) id e x lines f,
  Forall (fun e => e_file (snd e) <> None /\ exists lines, output (snd e) lines) a ->
  (e_file e = None /\ x = TypeError /\ lines = [] \/ e_file e <> None /\ generate (e_recorder e) = (lines, Some x)) ->
  exists f1 f', analyze dir f (a ++ (id, e) :: b) = (f', Some x) /\
    (forall p, left_in dir p (map snd a) (f p) (f1 p)) /\
    (forall p, writes_to dir e p -> f' p = (if e_append e then f1 p else []) ++ lines) /\
    (forall p, ~ writes_to dir e p -> f' p = f1 p).
Proof.
  intros dir a b id e x lines f F Hx.
  destruct (analyze_left dir a f F) as [f1 [E1 Hl]].
  assert (Ea : forall r, analyze dir f (a ++ r) = analyze dir f1 r).
  { clear - E1. revert f E1. induction a as [|[k e'] a IH]; intros f E1 r; cbn in *; [now injection E1 as ->|].
    destruct (run dir f e') as [f2 [y|]]; [discriminate|]. auto. }
  rewrite Ea. exists f1. cbn [analyze]. unfold run.
  destruct Hx as [[En [-> ->]]|[Hn Hg]].
  - rewrite En. exists f1. refine (conj eq_refl (conj Hl (conj _ _))); auto.
    intros p [n [E _]]. rewrite En in E. discriminate.
  - destruct (e_file e) as [n|] eqn:En; [|contradiction]. rewrite Hg.
    eexists. refine (conj eq_refl (conj Hl (conj _ _))).
    + intros p Hp. apply (writes_to_iff dir e n p En) in Hp. unfold write.
      destruct (path_eqb_spec p (full_path dir n)); [|contradiction]. now destruct (e_append e).
    + intros p Hp. rewrite (writes_to_iff dir e n p En) in Hp. unfold write.
      now destruct (path_eqb_spec p (full_path dir n)).
Qed.

Lemma untouched : forall dir p (es : list (entry L)) old new,
  left_in dir p es old new -> (forall e, In e es -> ~ writes_to dir e p) -> new = old.
Proof.
  induction 1; intros Hn; auto; try (now exfalso; apply (Hn e (or_introl eq_refl))).
  apply IHleft_in. intros e' He. apply Hn. now right.
Qed.

Lemma output_unique : forall (e : entry L) a b, output e a -> output e b -> a = b.
Proof. unfold output. intros. congruence. Qed.

Lemma left_unique : forall dir p (es : list (entry L)) old new new',
  left_in dir p es old new -> left_in dir p es old new' -> new = new'.
Proof.
  intros dir p es old new new' H. revert new'. induction H; intros new' H'; inversion H'; subst; try contradiction; try congruence; auto.
  - apply IHleft_in. now rewrite (output_unique e lines lines0).
  - apply IHleft_in. now rewrite (output_unique e lines lines0).
Qed.

(** A recorder alone in its file. *)
Lemma alone : forall dir p (es : list (entry L)) e old new lines a b,
  es = a ++ e :: b -> (forall e', In e' (a ++ b) -> ~ writes_to dir e' p) ->
  writes_to dir e p -> output e lines -> left_in dir p es old new ->
  new = (if e_append e then old else []) ++ lines.
Proof.
  intros dir p es e old new lines a b -> Hn Hw Ho H. revert old H. induction a as [|e' a IH]; intros old H; cbn in *.
  - inversion H; subst; try contradiction; rewrite (output_unique e lines lines0) by assumption;
      rewrite H3; eapply untouched; eauto.
  - inversion H; subst; try (exfalso; apply (Hn e'); [now left|assumption]).
    apply IH; auto.
Qed.

(** A file overwritten by some recorder does not depend on what it was before. *)
Lemma overwritten : forall dir p (es : list (entry L)) e old old' new new',
  In e es -> writes_to dir e p -> e_append e = false ->
  left_in dir p es old new -> left_in dir p es old' new' -> new = new'.
Proof.
  intros dir p es e old old' new new' Hin Hw Ha H. revert old' new'.
  induction H as [old|e0 r old new Hw0 H IH|e0 r lines old new Hw0 Ha0 Ho H IH|e0 r lines old new Hw0 Ha0 Ho H IH]; intros old' new' H'.
  - contradiction.
  - inversion H'; subst; try contradiction. destruct Hin as [->|Hin]; [contradiction|]. eapply IH; eauto.
  - inversion H'; subst; try contradiction; try congruence. destruct Hin as [->|Hin]; [congruence|]. eapply IH; eauto.
  - inversion H'; subst; try contradiction; try congruence.
    eapply left_unique; [exact H|]. now rewrite (output_unique e0 lines lines0).
Qed.

(** Analysing again. *)
Lemma analyze_again : forall dir (d : defs L) f f1 f2 p,
  Forall (fun e => e_file (snd e) <> None /\ exists lines, output (snd e) lines) d ->
  analyze dir f d = (f1, None) -> analyze dir f1 d = (f2, None) ->
  (forall e, In e (map snd d) -> writes_to dir e p -> e_append e = false) -> f2 p = f1 p.
Proof.
  intros dir d f f1 f2 p F E1 E2 Ha.
  destruct (analyze_left dir d f F) as [f1' [E1' L1]]. rewrite E1 in E1'. injection E1' as <-.
  destruct (analyze_left dir d f1 F) as [f2' [E2' L2]]. rewrite E2 in E2'. injection E2' as <-.
  specialize (L1 p). specialize (L2 p).
  assert (Hd : forall es : list (entry L), Forall (fun e => e_file e <> None) es ->
            (exists e, In e es /\ writes_to dir e p) \/ forall e, In e es -> ~ writes_to dir e p).
  { clear. induction 1 as [|e es Hn _ IH]; [right; intros e []|].
    destruct (e_file e) as [n|] eqn:En; [|contradiction].
    destruct (path_eqb_spec p (full_path dir n)) as [Ep|Ep].
    - left. exists e. split; [now left|]. now apply (writes_to_iff dir e n).
    - destruct IH as [[e' [Hin Hw]]|IH]; [left; exists e'; split; auto; now right|].
      right. intros e' [<-|Hin]; auto. now rewrite (writes_to_iff dir e n p En). }
  destruct (Hd (map snd d)) as [[e [Hin Hw]]|Hn].
  - rewrite Forall_forall in *. intros e He. apply in_map_iff in He. destruct He as [x [<- Hx]]. now apply F.
  - symmetry. eapply overwritten; eauto.
  - rewrite (untouched _ _ _ _ _ L2 Hn). reflexivity.
Qed.

(** Definitions in force. *)
Lemma define_keys : forall (d : defs L) id e,
  map fst (define d id e) = if existsb (String.eqb id) (map fst d) then map fst d else map fst d ++ [id].
Proof.
  induction d as [|[k e'] d IH]; intros id e; cbn; [reflexivity|].
  rewrite String.eqb_sym. destruct (String.eqb_spec id k) as [->|Hne]; cbn; [reflexivity|].
  rewrite IH. destruct (existsb _ _); reflexivity.
Qed.

Lemma define_in : forall (d : defs L) id e k x, NoDup (map fst d) ->
  (In (k, x) (define d id e) <-> (k = id /\ x = e) \/ (k <> id /\ In (k, x) d)).
Proof.
  induction d as [|[k' e'] d IH]; intros id e k x Hd; cbn.
  - split; [intros [E|[]]; injection E as <- <-; auto|intros [[-> ->]|[_ []]]; auto].
  - inversion Hd as [|? ? Hn Hd']; subst.
    destruct (String.eqb_spec k' id) as [->|Hne]; cbn.
    + split.
      * intros [E|Hin]; [injection E as <- <-; auto|]. right. split; auto.
        intros ->. apply Hn. apply (in_map fst) in Hin. exact Hin.
      * intros [[-> ->]|[Hk [E|Hin]]]; auto. injection E as -> _. contradiction.
    + rewrite IH by exact Hd'. split.
      * intros [E|[H|[H1 H2]]]; auto. injection E as <- <-. auto.
      * intros [H|[H1 [E|H2]]]; auto.
Qed.

Lemma existsb_In : forall id l, existsb (String.eqb id) l = true <-> In id l.
Proof.
  intros. rewrite existsb_exists. split.
  - intros [x [Hin E]]. apply String.eqb_eq in E. now subst.
  - intros Hin. exists id. split; auto. apply String.eqb_refl.
Qed.

Lemma snoc_split : forall A (cmds : list A) c a x b, cmds ++ [c] = a ++ x :: b ->
  (b = [] /\ cmds = a /\ x = c) \/ exists b', b = b' ++ [c] /\ cmds = a ++ x :: b'.
Proof.
  intros A cmds c a x b E. destruct (@exists_last A (x :: b)) as [l [y El]]; [discriminate|].
  rewrite El in E. rewrite app_assoc in E. apply app_inj_tail in E. destruct E as [-> ->].
  destruct l as [|z l]; cbn in El.
  - injection El as -> ->. left. now rewrite app_nil_r.
  - injection El as -> ->. right. exists l. auto.
Qed.

Lemma order_snoc : forall (A : Type) (l : list A) c x a y b z, l ++ [c] = x ++ a :: y ++ b :: z ->
  (exists z', l = x ++ a :: y ++ b :: z') \/ (z = [] /\ b = c /\ l = x ++ a :: y).
Proof.
  intros A l c x a y b z E.
  replace (x ++ a :: y ++ b :: z) with ((x ++ a :: y) ++ b :: z) in E by (rewrite <- app_assoc; reflexivity).
  apply snoc_split in E. destruct E as [[-> [-> ->]]|[z' [-> ->]]]; auto.
  left. exists z'. now rewrite <- app_assoc.
Qed.

Lemma defined_in_force : forall (cmds : list (string * entry L)),
  in_force cmds (fold_left (fun d c => define d (fst c) (snd c)) cmds []).
Proof.
  intros cmds. pattern cmds. apply rev_ind; clear cmds.
  - refine (conj _ (conj _ _)).
    + intros id e. split; [intros []|intros [a [b [E _]]]; destruct a; discriminate].
    + constructor.
    + intros a b [x [y [z E]]]. destruct x; discriminate.
  - intros [id e] cmds [I1 [I2 I3]]. rewrite fold_left_app. cbn [fold_left fst snd].
    set (d := fold_left _ _ _) in *.
    assert (Hkeys : forall k, In k (map fst d) <-> In k (map fst cmds)).
    { intros k. split; intros Hk; apply in_map_iff in Hk; destruct Hk as [[k' e'] [<- Hk]].
      - apply I1 in Hk. destruct Hk as [a [b [-> _]]]. apply in_map_iff. exists (k', e'). split; auto. apply in_or_app. right. now left.
      - cbn. assert (Hl : exists e'' a b, cmds = a ++ (k', e'') :: b /\ ~ In k' (map fst b)).
        { clear - Hk. induction cmds as [|[k e0] cmds IH]; [contradiction|].
          destruct (in_dec string_dec k' (map fst cmds)) as [Hin|Hn].
          - apply in_map_iff in Hin. destruct Hin as [[k2 e2] [E2 Hin]]. cbn in E2. subst k2.
            assert (Hex : exists e'' a b, cmds = a ++ (k', e'') :: b /\ ~ In k' (map fst b)).
            { clear IH Hk. revert e2 Hin. induction cmds as [|[k3 e3] cmds IH2]; intros e2 Hin; [contradiction|].
              destruct (in_dec string_dec k' (map fst cmds)) as [Hin'|Hn'].
              - apply in_map_iff in Hin'. destruct Hin' as [[k4 e4] [E4 Hin']]. cbn in E4. subst k4.
                destruct (IH2 e4 Hin') as [e5 [a [b [-> Hb]]]]. exists e5, ((k3, e3) :: a), b. auto.
              - destruct Hin as [E|Hin].
                + injection E as -> ->. exists e2, [], cmds. auto.
                + exfalso. apply Hn'. apply (in_map fst) in Hin. exact Hin. }
            destruct Hex as [e5 [a [b [-> Hb]]]]. exists e5, ((k, e0) :: a), b. auto.
          - destruct Hk as [E|Hk]; [|exfalso; apply Hn; apply (in_map fst) in Hk; exact Hk].
            injection E as -> ->. exists e', [], cmds. auto. }
        destruct Hl as [e'' [a [b [E Hb]]]]. apply in_map_iff. exists (k', e''). split; auto. apply I1. eauto. }
    refine (conj _ (conj _ _)).
    + intros k x. rewrite define_in by exact I2. split.
      * intros [[-> ->]|[Hne Hin]].
        -- exists cmds, []. split; auto.
        -- apply I1 in Hin. destruct Hin as [a [b [-> Hb]]]. exists a, (b ++ [(id, e)]).
           rewrite <- app_assoc. split; auto. rewrite map_app. cbn. intros Hin. apply in_app_or in Hin. cbn in Hin.
           destruct Hin as [Hin|[Hin|[]]]; auto.
      * intros [a [b [E Hb]]]. apply snoc_split in E. destruct E as [[-> [-> E]]|[b' [-> ->]]].
        -- injection E as -> ->. auto.
        -- right. rewrite map_app in Hb. cbn in Hb. split.
           ++ intros ->. apply Hb. apply in_or_app. right. now left.
           ++ apply I1. exists a, b'. split; auto. intros Hin. apply Hb. apply in_or_app. now left.
    + rewrite define_keys. destruct (existsb (String.eqb id) (map fst d)) eqn:E; auto.
      assert (Hn : ~ In id (map fst d)) by (rewrite <- existsb_In, E; discriminate).
      clear - I2 Hn. induction (map fst d) as [|k l IH]; cbn; [repeat constructor; auto|].
      inversion I2; subst. constructor.
      * intros Hin. apply in_app_or in Hin. destruct Hin as [Hin|[<-|[]]]; [contradiction|]. apply Hn. now left.
      * apply IH; auto. intros Hin. apply Hn. now right.
    + intros a b [x [y [z E]]]. rewrite define_keys in E.
      assert (Hold : (exists x y z, map fst d = x ++ a :: y ++ b :: z) ->
                     exists x y, map fst (cmds ++ [(id, e)]) = x ++ a :: y /\ ~ In b x /\ In b y /\ a <> b).
      { intros H. destruct (I3 a b H) as [x' [y' [E' [H1 [H2 H3]]]]].
        exists x', (y' ++ [id]). rewrite map_app, E'. cbn. rewrite <- app_assoc. repeat split; auto.
        apply in_or_app. now left. }
      destruct (existsb (String.eqb id) (map fst d)) eqn:Ex.
      * apply Hold. eauto.
      * apply order_snoc in E. destruct E as [[z' E]|[-> [-> E]]]; [apply Hold; eauto|].
        assert (Hn : ~ In id (map fst d)) by (rewrite <- existsb_In, Ex; discriminate).
        assert (Ha : In a (map fst cmds)) by (apply Hkeys; rewrite E; apply in_or_app; right; now left).
        apply in_split in Ha. destruct Ha as [x' [y' E']].
        exists x', (y' ++ [id]). rewrite map_app, E'. cbn. rewrite <- app_assoc.
        assert (Hnc : ~ In id (map fst cmds)) by (rewrite <- Hkeys; exact Hn).
        repeat split; auto.
        -- intros Hin. apply Hnc. rewrite E'. apply in_or_app. now left.
        -- apply in_or_app. right. now left.
        -- intros ->. apply Hnc. rewrite E'. apply in_or_app. right. now left.
Qed.

(** Without a file name. *)
Lemma no_file : forall dir f (e : entry L), e_file e = None -> run dir f e = (f, Some TypeError).
Proof. intros dir f e E. unfold run. now rewrite E. Qed.

End Analyze.
