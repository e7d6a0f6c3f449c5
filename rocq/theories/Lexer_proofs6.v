(** * Where reading goes wrong *)
From Coq Require Import Ascii String List Bool Arith ZArith Lia.
From Verif Require Import Interp Lexer Literal Literal_spec Lexer_spec Lexer_proofs Lexer_proofs2 Lexer_proofs3 Lexer_proofs4 Lexer_proofs5.
Import ListNotations.
Local Open Scope list_scope.

(** ** Deciding what the specification asks of concrete texts *)
Definition letterb (c : ascii) : bool :=
  let n := nat_of_ascii c in
  (Nat.leb 65 n && Nat.leb n 90) || (Nat.leb 97 n && Nat.leb n 122).
Definition startsb (c : ascii) : bool := letterb c || Ascii.eqb c "_" || Ascii.eqb c ".".
Definition digitb (c : ascii) : bool := Nat.leb 48 (nat_of_ascii c) && Nat.leb (nat_of_ascii c) 57.
Definition nameb (t : list ascii) : bool :=
  match t with [] => false | c :: r => startsb c && forallb (fun c => startsb c || digitb c) r end.

Lemma startsb_iff : forall c, startsb c = true <-> starts_name c.
Proof.
  intro c. unfold startsb, letterb, starts_name, is_letter. rewrite !orb_true_iff, !andb_true_iff, !Nat.leb_le, !Ascii.eqb_eq.
  cbn [In]. intuition congruence.
Qed.
Lemma digitb_iff : forall c, digitb c = true <-> is_digit c.
Proof. intro c. unfold digitb, is_digit. rewrite andb_true_iff, !Nat.leb_le. reflexivity. Qed.
Lemma nameb_sound : forall t, nameb t = true -> is_name t.
Proof.
  intros [|c r]; [discriminate|]. cbn. rewrite andb_true_iff, forallb_forall. intros [H1 H2].
  exists c, r. rewrite <- startsb_iff. refine (conj eq_refl (conj H1 _)).
  apply Forall_forall. intros d I. specialize (H2 d I). rewrite orb_true_iff, startsb_iff, digitb_iff in H2. exact H2.
Qed.
Lemma digits_sound : forall t, t <> [] -> forallb digitb t = true -> digits t.
Proof. intros t N H. split; [exact N|]. apply Forall_forall. rewrite forallb_forall in H. intros c I. apply digitb_iff; auto. Qed.
Lemma gap_sound : forall t c s,
  match t with [] => true | x :: _ => negb (Ascii.eqb x """") && negb (Ascii.eqb x "'") end = true ->
  t <> ["$"%char] ->
  startsb c || digitb c || Ascii.eqb c "/" || Ascii.eqb c "+" || Ascii.eqb c "-" = false -> separated t (c :: s).
Proof.
  intros t c s H1 H2 H3. rewrite !orb_false_iff in H3. destruct H3 as [[[[A B] C] D] E].
  apply Ascii.eqb_neq in C, D, E.
  apply separated_gap; auto.
  - intros (x & r & -> & Q). cbn in H1. rewrite andb_true_iff, !negb_true_iff, !Ascii.eqb_neq in H1.
    unfold quote_char in Q. intuition.
  - intros [S|[S| ->]]; [rewrite <- startsb_iff in S|rewrite <- digitb_iff in S|]; congruence.
  - intros S. unfold is_sign in S. cbn in S. intuition.
Qed.

Lemma unreserved : forall exact t,
  forallb (fun s => negb (String.eqb s (string_of_list_ascii t)))
    ("loglog"%string :: map snd (literals_1 ++ literals_2)) = true -> ~ reserved exact t.
Proof.
  intros exact t H (k & s & V & ->). rewrite forallb_forall in H.
  rewrite string_of_list_ascii_of_string in H.
  assert (I : In s ("loglog"%string :: map snd (literals_1 ++ literals_2))).
  { assert (B : existsb (String.eqb s) ("loglog"%string :: map snd (literals_1 ++ literals_2)) = true).
    { destruct k as [k| | | | | | | | | | | | | | | | |]; try (destruct k); try discriminate; try (destruct exact);
        injection V as <-; reflexivity. }
    apply existsb_exists in B as (y & I & E). apply String.eqb_eq in E. now rewrite E. }
  specialize (H s I). rewrite String.eqb_refl in H. discriminate.
Qed.

(** A step of a layout: a blank, the punctuation, a word. *)
Ltac blank := apply laid_blank; [cbn; tauto|let H := fresh in intros H; try discriminate H; intros [A (r & B)]; discriminate A || discriminate B|].
Ltac gap := first [ apply separated_end | apply separated_punctuation; cbv; tauto
                  | apply gap_sound; [reflexivity|discriminate|reflexivity] ].
Ltac name t := apply (laid_word _ (Of ID) (text t)); [apply word_name; [apply nameb_sound; reflexivity|apply unreserved; reflexivity]|gap|].
Ltac number t := apply (laid_word _ (Of INTEGER) (text t)); [apply word_integer; apply digits_sound; [discriminate|reflexivity]|gap|].
Ltac fixed k t := apply (laid_word _ k (text t)); [apply word_fixed; reflexivity|gap|].

(** ** The keyword [loglog] *)
Definition tabbed : list ascii := (text "detfn f" ++ "009"%char :: text "loglog [1, 2];")%list.
Definition tabbed_words : list (tkind * list ascii) :=
  [(Of DETFN, text "detfn"); (Of ID, text "f"); (Of LOGLOG, text "loglog"); (Of LBRACKET, text "[");
   (Of INTEGER, text "1"); (Of COMMA, text ","); (Of INTEGER, text "2"); (Of RBRACKET, text "]");
   (Of SEMICOLON, text ";")].

Lemma tabbed_laid : laid_out false tabbed_words tabbed.
Proof.
  unfold tabbed, tabbed_words. cbn [list_ascii_of_string app].
  fixed (Of DETFN) "detfn"%string. blank. name "f"%string. blank. fixed (Of LOGLOG) "loglog"%string. blank.
  fixed (Of LBRACKET) "["%string. number "1"%string. fixed (Of COMMA) ","%string. blank. number "2"%string.
  fixed (Of RBRACKET) "]"%string. fixed (Of SEMICOLON) ";"%string. constructor.
Qed.

Definition named : list ascii := text "print loglog_data;".
Definition named_words : list (tkind * list ascii) :=
  [(Of PRINT, text "print"); (Of ID, text "loglog_data"); (Of SEMICOLON, text ";")].

Lemma named_laid : laid_out false named_words named.
Proof.
  unfold named, named_words. cbn [list_ascii_of_string].
  fixed (Of PRINT) "print"%string. blank. name "loglog_data"%string. fixed (Of SEMICOLON) ";"%string. constructor.
Qed.

Lemma refute_layout : exists ws s ws' s',
  (laid_out false ws s /\ In (Of LOGLOG, text "loglog") ws /\ ~ In (Of LOGLOG) (map fst (tokens (fst (read s))))) /\
  (laid_out false ws' s' /\ length (tokens (fst (read s'))) <> length ws').
Proof.
  exists tabbed_words, tabbed, named_words, named.
  refine (conj (conj tabbed_laid (conj _ _)) (conj named_laid _)).
  - cbn. tauto.
  - vm_compute. intuition discriminate.
  - vm_compute. discriminate.
Qed.

(** ** Numbers *)
Lemma refute_number : exists t s, is_number t /\ separated t s /\ tokens (fst (read (t ++ s))) = (Of ID, t) :: tokens (fst (read s)).
Proof.
  exists (text ".5"), (text ";"). refine (conj _ (conj _ eq_refl)).
  - exists [], (text ".5"), []. refine (conj (or_introl eq_refl) (conj _ (conj exponent_none eq_refl))).
    apply (mantissa_fraction (text "5")). apply digits_sound; [discriminate|reflexivity].
  - change (separated (text ".5") [";"%char]). apply gap_sound; [reflexivity|discriminate|reflexivity].
Qed.

(** ** Python expressions *)
Lemma balanced_snd : forall outer e l, balanced outer e l -> concat (map snd l) = e.
Proof.
  induction 1; cbn; [reflexivity|now rewrite IHbalanced|].
  rewrite map_app, concat_app. cbn. now rewrite IHbalanced1, IHbalanced2.
Qed.

Lemma balanced_chars : forall outer b e l, ~ In "("%char b -> ~ In ")"%char b -> balanced outer e l ->
  exists l', balanced outer (b ++ e) l'.
Proof.
  intros outer b e l. induction b as [|c b IH]; intros H1 H2 B; [exists l; exact B|].
  destruct IH as [l' B']; auto; [intro; apply H1; now right|intro; apply H2; now right|].
  eexists. apply balanced_char; eauto; intros ->; [apply H1|apply H2]; now left.
Qed.

Lemma python_balanced : forall e, python_text true e -> forall outer, exists l, balanced outer e l.
Proof.
  induction 1 as [|c e Q H1 H2 H IH|e e' H IH H' IH'|q b e F P H IH]; intros outer.
  - eexists. constructor.
  - destruct (IH outer) as [l B]. eexists. apply balanced_char; eauto.
  - destruct (IH false) as [l B], (IH' outer) as [l' B']. eexists. apply balanced_parens; eauto.
  - destruct (IH outer) as [l B]. destruct (P eq_refl) as [P1 P2].
    unfold literal. change ((mark q :: b ++ [mark q]) ++ e) with (mark q :: (b ++ [mark q]) ++ e).
    rewrite <- app_assoc. destruct (balanced_chars outer [mark q] e l) as [l1 B1]; auto;
      try (destruct q; cbn; intuition discriminate).
    destruct (balanced_chars outer b ([mark q] ++ e) l1) as [l2 B2]; auto.
    destruct (balanced_chars outer [mark q] (b ++ [mark q] ++ e) l2) as [l3 B3]; auto;
      try (destruct q; cbn; intuition discriminate).
    exists l3. exact B3.
Qed.

Lemma run_python : forall e l s ms, balanced true e l ->
  run Default ms (text "$(" ++ e ++ ")"%char :: s) =
    let (l', x) := run Default ms s in
    (Token (Of PYTHON_ESCAPE) (text "$(") :: as_tokens l ++ Token (Of PYTHON_END) (text ")") :: l', x).
Proof.
  intros e l s ms He.
  rewrite (run_step Default ms (text "$(") (e ++ ")"%char :: s) (Of PYTHON_ESCAPE) Pymode (Default :: ms)).
  - change Pymode with (pymode true).
    rewrite (run_expression true e l He (Default :: ms)).
    rewrite (python_step true (Default :: ms) ")" s (Of PYTHON_END) Default ms); try reflexivity.
    destruct (run Default ms s) as [l' x]. reflexivity.
  - discriminate.
  - vm_compute. reflexivity.
  - intros p q E Hp. destruct p as [|d p]; [congruence|].
    change (text "$(" ++ d :: p) with ("$"%char :: "("%char :: d :: p). apply other_none.
    + rewrite path_nat. cbn. lia.
    + unfold is_sign. cbn. intuition discriminate.
    + intros [N|N]; discriminate.
    + discriminate.
    + intros l' I' E'. destruct (literals_inner l' I') as [L|L].
      * rewrite L in E'. discriminate.
      * rewrite <- E' in L. cbn in L. apply Forall_inv in L. rewrite path_nat in L. unfold is_sign in L. cbn in L.
        destruct L as [L|[L|[L|[]]]]; try discriminate. lia.
  - reflexivity.
Qed.

Lemma read_run : forall s, read s = run Default [] s.
Proof. reflexivity. Qed.

Lemma expression_read : forall e s, python_text true e -> exists l,
  concat (map snd l) = e /\
  tokens (fst (read (text "$(" ++ e ++ ")"%char :: s))) =
    (Of PYTHON_ESCAPE, text "$(") :: l ++ (Of PYTHON_END, text ")") :: tokens (fst (read s)).
Proof.
  intros e s P. destruct (python_balanced e P true) as [l B]. exists l.
  split; [eapply balanced_snd; eauto|].
  rewrite (read_run (text "$(" ++ _)), (read_run s), (run_python e l s [] B). destruct (run Default [] s) as [l' x].
  cbn [fst tokens]. rewrite tokens_as. reflexivity.
Qed.

Definition quoted_paren : list ascii := literal Double (text "(").

Lemma refute_expression : exists e s, python_text false e /\ laid_out true [(Of SEMICOLON, text ";")] s /\
  ~ In (Of PYTHON_END) (map fst (tokens (fst (read (text "$(" ++ e ++ ")"%char :: s))))).
Proof.
  exists quoted_paren, (text ";"). refine (conj _ (conj _ _)).
  - unfold quoted_paren. rewrite <- (app_nil_r (literal Double (text "("))). apply python_string.
    + repeat constructor; try discriminate. cbn. intuition discriminate.
    + discriminate.
    + constructor.
  - fixed (Of SEMICOLON) ";"%string. constructor.
  - vm_compute. intuition discriminate.
Qed.

(** ** Text that is passed over *)
Lemma refute_dropped : exists s s', ~ nothing_dropped (fst (read s)) /\
  laid_out true (tokens (fst (read s'))) s' /\ tokens (fst (read s)) = tokens (fst (read s')) /\ tokens (fst (read s)) <> [].
Proof.
  exists (text "set x = 5;"), (text "set x 5;"). refine (conj _ (conj _ (conj _ _))).
  - intro H. vm_compute in H. repeat match goal with H : Forall _ (_ :: _) |- _ => inversion_clear H end. assumption.
  - replace (tokens (fst (read (text "set x 5;")))) with
      [(Of SET, text "set"); (Of ID, text "x"); (Of INTEGER, text "5"); (Of SEMICOLON, text ";")] by (vm_compute; reflexivity).
    cbn [list_ascii_of_string]. fixed (Of SET) "set"%string. blank. name "x"%string. blank. number "5"%string.
    fixed (Of SEMICOLON) ";"%string. constructor.
  - vm_compute. reflexivity.
  - vm_compute. discriminate.
Qed.


(** ** An example *)
Definition example_words : list (tkind * list ascii) :=
  [(Of SET, text "set"); (Of ID, text "x"); (Of PYTHON_ESCAPE, text "$("); (Of OTHER, text "a");
   (Of PYMODELPAREN, text "("); (Of NESTEDOTHER, text "b"); (Of NESTEDRPAREN, text ")"); (Of PYTHON_END, text ")");
   (Of SEMICOLON, text ";"); (Of TITLE, text "title"); (Of STRING, text "'t'"); (Of SEMICOLON, text ";")].
Lemma example_expression : balanced true (text "a(b)")
  [(Of OTHER, text "a"); (Of PYMODELPAREN, text "("); (Of NESTEDOTHER, text "b"); (Of NESTEDRPAREN, text ")")].
Proof.
  apply (balanced_char true "a"); try discriminate.
  apply (balanced_parens true (text "b") [(Of NESTEDOTHER, text "b")] [] []); [|constructor].
  apply (balanced_char false "b"); try discriminate. constructor.
Qed.
Ltac the_expression := apply (laid_python true (text "a(b)") _ _ _ example_expression).
Ltac the_string := apply (laid_word true (Of STRING) (literal Single (text "t")));
  [apply (word_string true Single (text "t") (text "t")); apply (written_plain Single "t"); [discriminate|discriminate|constructor]
  |apply separated_string; intros (_ & (r & E) & _); destruct r as [|? [|? ?]]; discriminate|].
