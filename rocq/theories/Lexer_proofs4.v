(** * Proofs about the lexer: whole texts *)
From Coq Require Import Ascii String List Bool Arith Lia.
From Verif Require Import Interp Lexer Literal Literal_spec Lexer_spec Lexer_proofs Lexer_proofs2 Lexer_proofs3.
Import ListNotations.
Local Open Scope list_scope.

Arguments rules : simpl never.

(** ** Every step takes something *)
Lemma winner_empty : forall m, winner (rules m) [] = None.
Proof. intros []; vm_compute; reflexivity. Qed.

Lemma scan_some : forall m s k n, fst (scan (rules m) s 0 None) = Some (k, n) ->
  exists a b, s = a ++ b /\ length a = n /\ a <> [] /\ winner (rules m) a = Some k.
Proof.
  intros m s k n E. destruct (scan_best s (rules m) 0 None) as [(a & b & k' & -> & W & _ & E')|[_ E']].
  - rewrite E' in E. injection E as -> <-. exists a, b. repeat split; auto.
    intros ->. rewrite winner_empty in W. discriminate.
  - congruence.
Qed.

Lemma lex_fuel : forall n s m ms fuel, length s <= n -> length s <= fuel -> lex fuel m ms s = lex (length s) m ms s.
Proof.
  induction n as [|n IH]; intros s m ms fuel Hn Hf.
  - destruct s; [|cbn in Hn; lia]. destruct fuel; reflexivity.
  - destruct s as [|c s]; [destruct fuel; reflexivity|].
    destruct fuel as [|fuel]; [cbn in Hf; lia|]. cbn [length] in *. cbn [lex].
    pose proof (scan_some m (c :: s)) as Hs.
    destruct (scan (rules m) (c :: s) 0 None) as [[[k j]|] j'].
    + destruct (Hs k j eq_refl) as (a & b & E & Ha & Ne & W). rewrite E, <- Ha.
      rewrite skipn_app, skipn_all, Nat.sub_diag. cbn [skipn app].
      assert (length b <= length s).
      { apply (f_equal (@length ascii)) in E. cbn in E. rewrite app_length in E.
        destruct a; [congruence|]. cbn in E. lia. }
      destruct (switch k m ms) as [[m' ms']|]; [|reflexivity].
      rewrite (IH b m' ms' fuel); try lia. rewrite (IH b m' ms' (length s)); try lia. reflexivity.
    + assert (L : length (skipn (S j') (c :: s)) <= length s) by (rewrite skipn_length; cbn; lia).
      rewrite (IH _ m ms fuel); try lia. rewrite (IH _ m ms (length s)); try lia. reflexivity.
Qed.

(** The lexer without fuel. *)
Definition run (m : lmode) (ms : list lmode) (s : list ascii) : list event * ending := lex (length s) m ms s.

Lemma run_end : forall m ms, run m ms [] = ([], AtEnd).
Proof. reflexivity. Qed.

Lemma run_step : forall m ms t s k m' ms', t <> [] -> winner (rules m) t = Some k ->
  (forall p q, s = p ++ q -> p <> [] -> winner (rules m) (t ++ p) = None) ->
  switch k m ms = Some (m', ms') ->
  run m ms (t ++ s) =
    let (l, e) := run m' ms' s in
    ((match k with Of WS => Skipped t | _ => Token k t end) :: l, e).
Proof.
  intros m ms t s k m' ms' Ht W Hl Sw.
  pose proof (scan_word (rules m) t s k W Ht Hl) as Sc.
  unfold run. destruct t as [|c t]; [congruence|].
  cbn [app length lex]. change (c :: t ++ s) with ((c :: t) ++ s).
  destruct (scan (rules m) ((c :: t) ++ s) 0 None) as [o j]. cbn [fst] in Sc. subst o.
  rewrite Sw.
  assert (E1 : skipn (length (c :: t)) ((c :: t) ++ s) = s)
    by (rewrite skipn_app, skipn_all, Nat.sub_diag; reflexivity).
  assert (E2 : firstn (length (c :: t)) ((c :: t) ++ s) = c :: t)
    by (rewrite firstn_app, firstn_all, Nat.sub_diag; cbn [firstn]; apply app_nil_r).
  rewrite E1, E2.
  rewrite (lex_fuel (length s) s m' ms'); auto.
  rewrite app_length. lia.
Qed.

(** ** Words *)
Lemma word_nonempty : forall k t, a_word true k t -> t <> [].
Proof.
  intros k t H. destruct H as [k s H|t (c & r & -> & _)|t H|t H|t H|q b m H].
  - intro E. destruct s; [|discriminate]. destruct k as [k| | | | | | | | | | | | | | | | |]; try (destruct k); discriminate.
  - discriminate.
  - apply H.
  - now apply number_nonempty.
  - apply H.
  - discriminate.
Qed.

Lemma word_wins : forall k t, a_word true k t -> winner default_rules t = Some k.
Proof.
  intros k t H. destruct H.
  - now apply fixed_wins.
  - now apply name_wins.
  - now apply integer_wins.
  - now apply float_wins.
  - now apply file_wins.
  - eapply string_wins; eauto.
Qed.

Lemma word_hash : forall k t, a_word true k ("#"%char :: t) -> False.
Proof.
  intros k t H.
  assert (Hi : ~ (in_path "#" \/ is_sign "#")).
  { rewrite path_nat. unfold is_sign. cbn. intros [N|[N|[N|[]]]]; try discriminate. lia. }
  remember ("#"%char :: t) as w eqn:E. destruct H as [k s H|w H _|w H|w H _ _|w H _ _|q b m H]; subst.
  - destruct k as [k| | | | | | | | | | | | | | | | |]; try (destruct k); try discriminate;
      injection H as <-; discriminate.
  - apply name_path in H. apply first_path in H. tauto.
  - apply digits_path in H. apply first_path in H. tauto.
  - apply first_number in H. tauto.
  - apply first_path in H. tauto.
  - destruct q; discriminate.
Qed.

Lemma word_quoted : forall k t, a_word true k t -> begins_quoted t ->
  exists q b m, t = literal q b /\ written q b m.
Proof.
  intros k t H (c & r & E & Q). pose proof (quote_not_path c Q) as [Q1 Q2].
  destruct H as [k s H|w H _|w H|w H _ _|w H _ _|q b m H]; subst.
  - exfalso. destruct k as [k| | | | | | | | | | | | | | | | |]; try (destruct k); try discriminate;
      injection H as <-; injection E as <- _; destruct Q; discriminate.
  - apply name_path in H. apply first_path in H. tauto.
  - apply digits_path in H. apply first_path in H. tauto.
  - apply first_number in H. tauto.
  - apply first_path in H. tauto.
  - exists q, b, m. auto.
Qed.

Lemma app_first : forall (c : ascii) (s p q : list ascii), c :: s = p ++ q -> p <> [] -> exists p', p = c :: p'.
Proof. intros c s p q E Hp. destruct p; [congruence|]. injection E as <- _. eauto. Qed.

Lemma literal_inj : forall q b q' b', literal q b = literal q' b' -> q = q' /\ b = b'.
Proof.
  intros q b q' b' E. unfold literal in E. injection E as E1 E2. apply mark_inj in E1. subst.
  apply app_inj_tail in E2 as [-> _]. auto.
Qed.

Lemma word_ends : forall k t s p r, a_word true k t -> separated t s -> s = p ++ r -> p <> [] ->
  winner default_rules (t ++ p) = None.
Proof.
  intros k t s p r H Sep E Hp. destruct Sep as [t|t s I|c s Hc|q b s Hn|t c s Hq Hd Hc1 Hc2].
  - symmetry in E. apply app_eq_nil in E as [-> _]. congruence.
  - now apply punctuation_none.
  - destruct (app_first _ _ _ _ E Hp) as [p' ->]. now apply dollar_none.
  - destruct (word_quoted k (literal q b) H) as (q' & b' & m & El & W).
    { exists (mark q), (b ++ [mark q]). split; [reflexivity|apply mark_quote]. }
    apply literal_inj in El as [<- <-]. subst s. eapply string_none; eauto.
  - destruct (app_first _ _ _ _ E Hp) as [p' ->].
    destruct t as [|a t]; [now apply word_nonempty in H|].
    apply gap_none; auto.
    + intro Q. apply Hq. exists a, t. auto.
    + intros ->. now apply word_hash in H.
Qed.

(** ** Python expressions *)
Definition pymode (outer : bool) : lmode := if outer then Pymode else Nestedpymode.

Lemma python_char : forall (outer : bool) c p, winner (rules (pymode outer)) (c :: p) =
  match p with
  | [] => Some (if Ascii.eqb c ")" then Of (if outer then PYTHON_END else NESTEDRPAREN)
                else if Ascii.eqb c "(" then Of (if outer then PYMODELPAREN else NESTEDLPAREN)
                else Of (if outer then OTHER else NESTEDOTHER))
  | _ => None
  end.
Proof.
  intros outer c p. destruct p as [|d p].
  - destruct outer; unfold rules, pymode; rewrite !winner_cons;
      unfold accepts, this; cbn [fold_left after nullable];
      rewrite ?(Ascii.eqb_sym ")" c), ?(Ascii.eqb_sym "(" c);
      destruct (Ascii.eqb c ")") eqn:E1; destruct (Ascii.eqb c "(") eqn:E2; cbn [nullable]; try reflexivity.
    apply Ascii.eqb_eq in E1, E2. subst. discriminate.
  - apply winner_none. destruct outer; unfold rules, pymode;
      (repeat (apply Forall_cons; [cbn [snd]; intro L; apply lang_char_inv in L as (x & Ex & _); discriminate|]));
      apply Forall_nil.
Qed.

Lemma python_step : forall (outer : bool) ms c s k m' ms',
  k = (if Ascii.eqb c ")" then Of (if outer then PYTHON_END else NESTEDRPAREN)
       else if Ascii.eqb c "(" then Of (if outer then PYMODELPAREN else NESTEDLPAREN)
       else Of (if outer then OTHER else NESTEDOTHER)) ->
  switch k (pymode outer) ms = Some (m', ms') ->
  run (pymode outer) ms (c :: s) = let (l, e) := run m' ms' s in (Token k [c] :: l, e).
Proof.
  intros outer ms c s k m' ms' Ek Sw. change (c :: s) with ([c] ++ s).
  rewrite (run_step (pymode outer) ms [c] s k m' ms').
  - destruct (run m' ms' s). subst k. destruct outer, (Ascii.eqb c ")"), (Ascii.eqb c "("); reflexivity.
  - discriminate.
  - rewrite python_char. now subst.
  - intros p q _ Hp. destruct p as [|d p]; [congruence|]. cbn [app]. now rewrite python_char.
  - exact Sw.
Qed.

Definition as_tokens (l : list (tkind * list ascii)) : list event := map (fun p => Token (fst p) (snd p)) l.

Lemma run_expression : forall outer e l, balanced outer e l -> forall ms s,
  run (pymode outer) ms (e ++ s) =
    let (l', x) := run (pymode outer) ms s in (as_tokens l ++ l', x).
Proof.
  induction 1 as [outer|outer c e l N1 N2 H IH|outer e l e' l' H1 IH1 H2 IH2]; intros ms s.
  - cbn [app as_tokens map]. destruct (run (pymode outer) ms s); reflexivity.
  - cbn [app]. rewrite (python_step outer ms c (e ++ s) (Of (if outer then OTHER else NESTEDOTHER)) (pymode outer) ms).
    + rewrite IH. destruct (run (pymode outer) ms s). reflexivity.
    + apply Ascii.eqb_neq in N1, N2. now rewrite N1, N2.
    + now destruct outer.
  - cbn [app]. rewrite (python_step outer ms "(" _ (Of (if outer then PYMODELPAREN else NESTEDLPAREN)) Nestedpymode (pymode outer :: ms)).
    + rewrite <- app_assoc. cbn [app]. change Nestedpymode with (pymode false). rewrite (IH1 (pymode outer :: ms) (")"%char :: e' ++ s)).
      rewrite (python_step false (pymode outer :: ms) ")" (e' ++ s) (Of NESTEDRPAREN) (pymode outer) ms); try reflexivity.
      rewrite IH2. destruct (run (pymode outer) ms s). unfold as_tokens.
      cbn [map fst snd]. rewrite map_app. cbn [map app fst snd]. rewrite <- app_assoc. reflexivity.
    + reflexivity.
    + now destruct outer.
Qed.

Lemma tokens_as : forall l l', tokens (as_tokens l ++ l') = l ++ tokens l'.
Proof. induction l as [|[k t] l IH]; intro l'; cbn; [reflexivity|]. now rewrite IH. Qed.

(** ** Texts laid out as words *)

Lemma dropped_as : forall l l', nothing_dropped l' -> nothing_dropped (as_tokens l ++ l').
Proof. intros l l' H. induction l; cbn; auto. constructor; auto. Qed.

Lemma not_ws : forall k t, a_word true k t -> k <> Of WS.
Proof. intros k t H. destruct H as [k s H|w H _|w H|w H _ _|w H _ _|q b m H]; try discriminate. intros ->. discriminate. Qed.

Lemma word_switch : forall k t m ms, a_word true k t -> switch k m ms = Some (m, ms).
Proof.
  intros k t m ms H. destruct H as [k s H|w H _|w H|w H _ _|w H _ _|q b x H]; try reflexivity.
  destruct k as [k| | | | | | | | | | | | | | | | |]; try reflexivity. destruct k; try reflexivity; discriminate.
Qed.

Lemma run_word : forall k t s ms, a_word true k t -> separated t s ->
  run Default ms (t ++ s) = let (l, e) := run Default ms s in (Token k t :: l, e).
Proof.
  intros k t s ms H Sep. rewrite (run_step Default ms t s k Default ms).
  - pose proof (not_ws k t H) as N. destruct (run Default ms s).
    destruct k as [k| | | | | | | | | | | | | | | | |]; try reflexivity. destruct k; try reflexivity. congruence.
  - eapply word_nonempty; eauto.
  - now apply word_wins.
  - intros p q E Hp. eapply word_ends; eauto.
  - eapply word_switch; eauto.
Qed.

Lemma run_space : forall t s ms, winner default_rules t = Some (Of WS) -> t <> [] ->
  (forall p q, s = p ++ q -> p <> [] -> winner default_rules (t ++ p) = None) ->
  run Default ms (t ++ s) = let (l, e) := run Default ms s in (Skipped t :: l, e).
Proof.
  intros t s ms W Ht Hl. now rewrite (run_step Default ms t s (Of WS) Default ms).
Qed.

Lemma run_laid : forall ws s, laid_out true ws s -> forall ms,
  tokens (fst (run Default ms s)) = ws /\ nothing_dropped (fst (run Default ms s)) /\ snd (run Default ms s) = AtEnd.
Proof.
  induction 1 as [|c ws s B N H IH|t ws s Ht Hs H IH|k t ws s W Sep H IH|e l ws s He H IH]; intro ms.
  - cbn. repeat split; auto. constructor.
  - change (c :: s) with ([c] ++ s). rewrite run_space.
    + destruct (IH ms) as (I1 & I2 & I3). destruct (run Default ms s). cbn in *. repeat split; auto. constructor; auto.
    + now apply blank_wins.
    + discriminate.
    + intros p q E Hp. eapply blank_none; eauto. rewrite <- E. auto.
  - change ("#"%char :: t ++ s) with (("#"%char :: t) ++ s). rewrite run_space.
    + destruct (IH ms) as (I1 & I2 & I3). destruct (run Default ms s). cbn in *. repeat split; auto. constructor; auto.
    + now apply comment_wins.
    + discriminate.
    + intros p q E Hp. destruct Hs as [->|(c & r & -> & Hc)].
      * symmetry in E. apply app_eq_nil in E as [-> _]. congruence.
      * destruct (app_first _ _ _ _ E Hp) as [p' ->]. cbn. now apply comment_none.
  - rewrite (run_word k t s ms W Sep).
    destruct (IH ms) as (I1 & I2 & I3). destruct (run Default ms s). cbn in *. repeat split; auto.
    + now rewrite I1.
    + constructor; auto.
  - rewrite (run_step Default ms (text "$(") (e ++ ")"%char :: s) (Of PYTHON_ESCAPE) Pymode (Default :: ms)).
    + change Pymode with (pymode true).
      rewrite (run_expression true e l He (Default :: ms)).
      rewrite (python_step true (Default :: ms) ")" s (Of PYTHON_END) Default ms); try reflexivity.
      destruct (IH ms) as (I1 & I2 & I3). destruct (run Default ms s) as [l' x]. cbn in I1, I2, I3.
      cbn [fst snd tokens]. repeat split; auto.
      * rewrite tokens_as. cbn. now rewrite I1.
      * constructor; auto. apply dropped_as. constructor; auto.
    + discriminate.
    + vm_compute. reflexivity.
    + intros p q E Hp. destruct p as [|d p]; [congruence|].
      change (text "$(" ++ d :: p) with ("$"%char :: "("%char :: d :: p). apply other_none.
      * rewrite path_nat. cbn. lia.
      * unfold is_sign. cbn. intuition discriminate.
      * intros [N|N]; discriminate.
      * discriminate.
      * intros l' I' E'. destruct (literals_inner l' I') as [L|L].
        -- rewrite L in E'. discriminate.
        -- rewrite <- E' in L. cbn in L. inversion L; subst. rewrite path_nat in H2. unfold is_sign in H2. cbn in H2.
           destruct H2 as [H2|[H2|[H2|[]]]]; try discriminate. lia.
    + reflexivity.
Qed.

Lemma read_laid : forall ws s, laid_out true ws s ->
  tokens (fst (read s)) = ws /\ nothing_dropped (fst (read s)) /\ snd (read s) = AtEnd.
Proof. intros ws s H. exact (run_laid ws s H []). Qed.
