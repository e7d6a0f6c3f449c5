(** * Proofs about the lexer: which rule wins, and the course of the lexer *)
From Coq Require Import Ascii String List Bool Arith Lia.
From Verif Require Import Interp Lexer Literal Literal_spec Lexer_spec Lexer_proofs Lexer_proofs2.
Import ListNotations.
Local Open Scope list_scope.

Arguments scan : simpl never.
Arguments winner : simpl never.

(** ** No rule matches *)
Lemma literals_none : forall ls t, (forall l, In l ls -> t <> text (snd l)) ->
  Forall (fun r => ~ lang (snd r) t) (map literal_rule ls).
Proof.
  intros ls t H. apply Forall_forall. intros r Hr. apply in_map_iff in Hr as (l & <- & Hl).
  cbn. intro L. apply lang_word in L. now apply (H l).
Qed.

Lemma strings_none : forall t, (forall q b, t = literal q b -> ~ body q b) ->
  ~ lang (Or single_re double_re) t /\ ~ lang single_re t.
Proof.
  intros t H. split; intro L.
  - apply lang_or_inv in L as [L|L].
    + apply (lang_quoted Single) in L as (b & E & Hb). now apply (H Single b).
    + apply (lang_quoted Double) in L as (b & E & Hb). now apply (H Double b).
  - apply (lang_quoted Single) in L as (b & E & Hb). now apply (H Single b).
Qed.

Lemma spaces_none : forall t, ~ is_space t -> ~ lang ws_re t /\ ~ lang comment_re t.
Proof.
  intros t H. split; intro L; apply H.
  - now apply lang_ws.
  - right. now apply lang_comment.
Qed.

Lemma default_none : forall t, ~ is_space t ->
  (forall l, In l (literals_1 ++ literals_2) -> t <> text (snd l)) ->
  (forall q b, t = literal q b -> ~ body q b) -> ~ is_number t -> ~ is_path t ->
  winner default_rules t = None.
Proof.
  intros t Hs Hl Hq Hn Hp. apply winner_none. unfold default_rules.
  apply spaces_none in Hs as [Hs1 Hs2]. apply strings_none in Hq as [Hq1 Hq2].
  rewrite !Forall_app. refine (conj _ (conj _ (conj _ (conj _ _)))).
  - repeat constructor; assumption.
  - apply literals_none. intros l I. apply Hl. apply in_or_app. auto.
  - repeat constructor; assumption.
  - apply literals_none. intros l I. apply Hl. apply in_or_app. auto.
  - constructor; [assumption|]. constructor; [intro L; apply lang_integer in L; now apply Hp, digits_path|].
    constructor; [intro L; apply lang_id in L; now apply Hp, name_path|].
    constructor; [intro L; now apply lang_float in L|].
    constructor; [intro L; now apply lang_file in L|]. constructor.
Qed.

(** ** Characters of words *)
Definition inner (c : ascii) : bool := file_char c || Ascii.eqb c "+" || Ascii.eqb c "-".

Lemma inner_iff : forall c, inner c = true <-> in_path c \/ is_sign c.
Proof.
  intro c. unfold inner, is_sign. rewrite !orb_true_iff, file_char_iff, !Ascii.eqb_eq. cbn [In].
  intuition congruence.
Qed.

Lemma sign_inner : forall s, sign s -> Forall (fun c => in_path c \/ is_sign c) s.
Proof. intros s [->|(c & H & ->)]; auto. Qed.

Lemma digits_inner : forall d, digits d -> Forall (fun c => in_path c \/ is_sign c) d.
Proof. intros d H. apply digits_path in H as [_ H]. eapply Forall_impl; [|exact H]. auto. Qed.

Lemma dot_path : in_path ".".
Proof. rewrite path_nat. cbn. lia. Qed.

Lemma number_inner : forall t, is_number t -> Forall (fun c => in_path c \/ is_sign c) t.
Proof.
  intros t (s & m & e & Hs & Hm & He & ->). apply Forall_app. split; [now apply sign_inner|].
  apply Forall_app. split.
  - destruct Hm.
    + now apply digits_inner.
    + apply Forall_app. split; [now apply digits_inner|]. constructor; [left; apply dot_path|constructor].
    + apply Forall_app. split; [now apply digits_inner|]. constructor; [left; apply dot_path|now apply digits_inner].
    + constructor; [left; apply dot_path|now apply digits_inner].
  - destruct He as [|c s' d Hc Hs' Hd]; auto. constructor.
    + left. rewrite path_nat. cbn in Hc. destruct Hc as [<-|[<-|[]]]; cbn; lia.
    + apply Forall_app. split; [now apply sign_inner|now apply digits_inner].
Qed.

Lemma path_inner : forall t, is_path t -> Forall (fun c => in_path c \/ is_sign c) t.
Proof. intros t [_ H]. eapply Forall_impl; [|exact H]. auto. Qed.

Lemma literals_inner : forall l, In l (literals_1 ++ literals_2) ->
  text (snd l) = text "$(" \/ Forall (fun c => in_path c \/ is_sign c) (tl (text (snd l))).
Proof.
  intros l I.
  assert (H : forallb (fun l : tkind * string => String.eqb (snd l) "$(" || forallb inner (tl (text (snd l))))
                      (literals_1 ++ literals_2) = true) by (vm_compute; reflexivity).
  rewrite forallb_forall in H. specialize (H l I). apply orb_prop in H as [H|H].
  - apply String.eqb_eq in H. rewrite H. auto.
  - right. rewrite forallb_forall in H. apply Forall_forall. intros c Hc. apply inner_iff. auto.
Qed.

Lemma space_long : forall c d r, is_space (c :: d :: r) -> c = "#"%char.
Proof. intros c d r [(x & _ & E)|(x & E & _)]; [discriminate|]. now injection E. Qed.

Lemma quote_not_path : forall c, quote_char c -> ~ in_path c /\ ~ is_sign c.
Proof.
  intros c [-> | ->]; rewrite path_nat; unfold is_sign; cbn; split; try lia; intros [E|[E|[]]]; discriminate.
Qed.

Lemma mark_quote : forall q, quote_char (mark q).
Proof. intros []; [left|right]; reflexivity. Qed.

(** After a word, a character that cannot be part of one. *)
Lemma gap_none : forall a t c p, ~ quote_char a -> a <> "#"%char -> a :: t <> ["$"%char] ->
  ~ in_path c -> ~ is_sign c -> winner default_rules ((a :: t) ++ c :: p) = None.
Proof.
  intros a t c p Ha1 Ha2 Hd Hc1 Hc2.
  assert (Hin : ~ Forall (fun c => in_path c \/ is_sign c) (tl ((a :: t) ++ c :: p))).
  { cbn [tl app]. intro F. apply Forall_app in F as [_ F]. inversion F; subst. tauto. }
  apply default_none.
  - cbn. destruct t as [|b t]; cbn; intro H; now apply space_long in H.
  - intros l I E. destruct (literals_inner l I) as [L|L].
    + rewrite L in E. destruct t as [|b t]; cbn in E.
      * injection E as -> E. now apply Hd.
      * injection E as _ _ E. destruct t; discriminate.
    + rewrite <- E in L. contradiction.
  - intros q b E _. cbn in E. unfold literal in E. injection E as -> _. apply Ha1. apply mark_quote.
  - intro H. apply number_inner in H. apply Hin. cbn in *. now inversion H.
  - intro H. apply path_inner in H. apply Hin. cbn in *. now inversion H.
Qed.

(** After punctuation, anything. *)
Definition mark_char (c : ascii) : bool := existsb (Ascii.eqb c) (text "{}[](),;:*").

Lemma literals_marks : forall l c d r, In l (literals_1 ++ literals_2) -> text (snd l) = c :: d :: r ->
  mark_char c = false /\ c <> "#"%char /\ ~ quote_char c /\
  (c = "$"%char -> d = "("%char) /\ (is_blank c -> c = " "%char /\ d :: r = text "loglog").
Proof.
  intros l c d r I E.
  assert (H : forallb (fun l : tkind * string =>
    match text (snd l) with
    | c :: d :: r =>
        negb (mark_char c) && negb (Ascii.eqb c "#") && negb (Ascii.eqb c "'") && negb (Ascii.eqb c """") &&
        (negb (Ascii.eqb c "$") || Ascii.eqb d "(") &&
        (negb (existsb (Ascii.eqb c) [" "%char; "009"%char; "013"%char; "010"%char]) ||
         String.eqb (snd l) " loglog")
    | _ => true
    end) (literals_1 ++ literals_2) = true) by (vm_compute; reflexivity).
  rewrite forallb_forall in H. specialize (H l I). cbv beta in H. rewrite E in H.
  rewrite !andb_true_iff, !negb_true_iff, !Ascii.eqb_neq in H.
  destruct H as (((((H1 & H2) & H3) & H4) & H5) & H6).
  refine (conj H1 (conj H2 (conj _ (conj _ _)))).
  - intros [Q|Q]; contradiction.
  - intros ->. cbn in H5. now apply Ascii.eqb_eq in H5.
  - intro B. apply orb_prop in H6 as [H6|H6].
    + exfalso. rewrite negb_true_iff in H6. assert (existsb (Ascii.eqb c) [" "%char; "009"%char; "013"%char; "010"%char] = true).
      { apply existsb_exists. exists c. split; [exact B|apply Ascii.eqb_refl]. } congruence.
    + apply String.eqb_eq in H6. rewrite H6 in E. injection E as <- <- <-. auto.
Qed.

Lemma first_path : forall c r, is_path (c :: r) -> in_path c.
Proof. intros c r [_ H]. now inversion H. Qed.

Lemma first_number : forall c r, is_number (c :: r) -> in_path c \/ is_sign c.
Proof. intros c r H. apply number_inner in H. now inversion H. Qed.

Lemma punctuation_char : forall t, In t punctuation -> exists c, t = [c] /\ mark_char c = true /\
  ~ in_path c /\ ~ is_sign c /\ ~ quote_char c /\ c <> "#"%char /\ c <> "$"%char /\ ~ is_blank c.
Proof.
  intros t I. unfold punctuation in I. cbn in I.
  repeat (destruct I as [<-|I]; [eexists; split; [reflexivity|]; split; [reflexivity|]; rewrite path_nat;
    unfold is_sign, quote_char, is_blank; cbn;
    repeat split; try lia; try discriminate; intuition discriminate|]).
  contradiction.
Qed.

Lemma other_none : forall c d p, ~ in_path c -> ~ is_sign c -> ~ quote_char c -> c <> "#"%char ->
  (forall l, In l (literals_1 ++ literals_2) -> c :: d :: p <> text (snd l)) ->
  winner default_rules (c :: d :: p) = None.
Proof.
  intros c d p H1 H2 H3 H4 H5. apply default_none; auto.
  - intro H. now apply space_long in H.
  - intros q b E _. unfold literal in E. injection E as -> _. apply H3. apply mark_quote.
  - intro H. apply first_number in H. tauto.
  - intro H. apply first_path in H. tauto.
Qed.

Lemma punctuation_none : forall t p, In t punctuation -> p <> [] -> winner default_rules (t ++ p) = None.
Proof.
  intros t p I Hp. apply punctuation_char in I as (c & -> & Hc & H1 & H2 & H3 & H4 & H5 & H6).
  destruct p as [|d p]; [congruence|]. cbn. apply other_none; auto.
  intros l I E. symmetry in E. destruct (literals_marks l c d p I E) as (H & _). congruence.
Qed.

Lemma dollar_none : forall c p, c <> "("%char -> winner default_rules ("$"%char :: c :: p) = None.
Proof.
  intros c p Hc. apply other_none.
  - rewrite path_nat. cbn. lia.
  - unfold is_sign. cbn. intuition discriminate.
  - intros [E|E]; discriminate.
  - discriminate.
  - intros l I E. symmetry in E. destruct (literals_marks l _ _ _ I E) as (_ & _ & _ & H & _). auto.
Qed.

(** Strings. *)
Lemma mark_inj : forall q q', mark q = mark q' -> q = q'.
Proof. intros [] [] E; auto; discriminate. Qed.

Lemma literal_not : forall q b r l, In l (literals_1 ++ literals_2) -> mark q :: b ++ r <> text (snd l).
Proof.
  intros q b r l I E. destruct (b ++ r) as [|d x].
  - assert (H : forallb (fun l : tkind * string => negb (String.eqb (snd l) "'") && negb (String.eqb (snd l) """"))
                        (literals_1 ++ literals_2) = true) by (vm_compute; reflexivity).
    rewrite forallb_forall in H. specialize (H l I). rewrite andb_true_iff, !negb_true_iff, !String.eqb_neq in H.
    destruct H as [H1 H2]. rewrite <- (string_of_list_ascii_of_string (snd l)), <- E in H1, H2.
    destruct q; [now apply H1|now apply H2].
  - symmetry in E. destruct (literals_marks l _ _ _ I E) as (_ & _ & H & _). apply H, mark_quote.
Qed.

Lemma string_none : forall q b m p q' , written q b m -> p <> [] ->
  ~ (q = Single /\ ends_with_backslash b /\ In "'"%char (p ++ q')) ->
  winner default_rules (literal q b ++ p) = None.
Proof.
  intros q b m p q' W Hp Hn.
  pose proof (mark_quote q) as Hm. pose proof (quote_not_path _ Hm) as [Hm1 Hm2].
  unfold literal. cbn. apply default_none.
  - intros [(c & Hc & E)|(r & E & _)].
    + injection E as <- E. destruct (b ++ [mark q]) eqn:Eb; cbn in E; [destruct b; discriminate|discriminate].
    + injection E as E _. destruct q; discriminate.
  - intros l I E. rewrite <- app_assoc in E. now apply literal_not in E.
  - intros r b' E Hb'. unfold literal in E. injection E as Eq E. apply mark_inj in Eq. subst r.
    destruct q.
    + rewrite <- app_assoc in E. cbn in E.
      destruct (exists_last Hp) as (p' & x & Ep). rewrite Ep in E.
      assert (E' : (b ++ "'"%char :: p') ++ [x] = b' ++ ["'"%char]) by (rewrite <- app_assoc; exact E).
      apply app_inj_tail in E' as [E1 ->].
      symmetry in E1. apply (body_quote Single b' Hb' b p') in E1.
      apply Hn. refine (conj eq_refl (conj E1 _)). rewrite Ep. apply in_or_app. left. apply in_or_app. right. now left.
    + rewrite <- app_assoc in E. cbn in E. symmetry in E. apply Hp. eapply double_end; eauto.
  - intro H. apply first_number in H. tauto.
  - intro H. apply first_path in H. tauto.
Qed.

(** White space. *)
Lemma blank_facts : forall c, is_blank c -> ~ in_path c /\ ~ is_sign c /\ ~ quote_char c /\ c <> "#"%char.
Proof.
  intros c H. unfold is_blank in H. cbn in H. rewrite path_nat. unfold is_sign, quote_char. cbn [In].
  destruct H as [<-|[<-|[<-|[<-|[]]]]]; cbn; repeat split; try lia; intuition discriminate.
Qed.

Lemma blank_none : forall c p q, is_blank c -> p <> [] -> ~ (c = " "%char /\ begins_with (text "loglog") (p ++ q)) ->
  winner default_rules (c :: p) = None.
Proof.
  intros c p q B Hp Hl. destruct p as [|d p]; [congruence|].
  pose proof (blank_facts c B) as (H1 & H2 & H3 & H4). apply other_none; auto.
  intros l I E. symmetry in E. destruct (literals_marks l _ _ _ I E) as (_ & _ & _ & _ & H).
  destruct (H B) as [-> Ed]. apply Hl. split; auto. exists q. now rewrite Ed.
Qed.

Lemma blank_wins : forall c, is_blank c -> winner default_rules [c] = Some (Of WS).
Proof. intros c B. apply winner_here. apply lang_ws. left. eauto. Qed.

Lemma comment_none : forall t c p, Forall (fun c => ~ ends_line c) t -> ends_line c ->
  winner default_rules ("#"%char :: t ++ c :: p) = None.
Proof.
  intros t c p Ht Hc. apply default_none.
  - intros [(x & _ & E)|(r & E & Hr)].
    + destruct t; discriminate.
    + injection E as <-. apply Forall_app in Hr as [_ Hr]. inversion Hr; subst. contradiction.
  - intros l I E. destruct (t ++ c :: p) as [|d x] eqn:Ed; [destruct t; discriminate|].
    symmetry in E. destruct (literals_marks l _ _ _ I E) as (_ & H & _). congruence.
  - intros q b E _. destruct q; discriminate.
  - intro H. apply first_number in H. rewrite path_nat in H. unfold is_sign in H. cbn in H.
    destruct H as [H|[H|[H|[]]]]; try discriminate. lia.
  - intro H. apply first_path in H. rewrite path_nat in H. cbn in H. lia.
Qed.

Lemma comment_wins : forall t, Forall (fun c => ~ ends_line c) t -> winner default_rules ("#"%char :: t) = Some (Of WS).
Proof. intros t H. apply winner_here. apply lang_ws. right. eauto. Qed.

(** ** The rule of each word wins *)
Lemma fixed_wins : forall k s, vocabulary true k = Some s -> winner default_rules (text s) = Some k.
Proof.
  intros k s H. destruct k as [k| | | | | | | | | | | | | | | | |]; try (destruct k);
    try discriminate; injection H as <-; vm_compute; reflexivity.
Qed.

Lemma fixed_literal : forall l, In l (literals_1 ++ literals_2) ->
  text (snd l) = text "$(" \/ reserved true (text (snd l)).
Proof.
  intros l I. destruct (text (snd l)) eqn:E.
  - exfalso. assert (H : forallb (fun l : tkind * string => negb (String.eqb (snd l) "")) (literals_1 ++ literals_2) = true)
      by (vm_compute; reflexivity).
    rewrite forallb_forall in H. specialize (H l I). destruct (snd l); discriminate.
  - rewrite <- E. clear E.
    assert (H : Forall (fun l : tkind * string => snd l = "$("%string \/ vocabulary true (fst l) = Some (snd l))
                       (literals_1 ++ literals_2)).
    { cbv [literals_1 literals_2 app]. repeat (apply Forall_cons; [cbn; auto|]). apply Forall_nil. }
    rewrite Forall_forall in H. destruct (H l I) as [H'|H']; [left; now rewrite H'|right].
    exists (fst l), (snd l). auto.
Qed.

Lemma path_not_literal : forall t l, is_path t -> ~ reserved true t -> In l (literals_1 ++ literals_2) -> t <> text (snd l).
Proof.
  intros t l Hp Hr I E. destruct (fixed_literal l I) as [H|H].
  - rewrite H in E. subst t. destruct Hp as [_ Hp]. inversion Hp; subst. rewrite path_nat in H2. cbn in H2. lia.
  - rewrite <- E in H. contradiction.
Qed.

Lemma inner_not_space : forall t, t <> [] -> Forall (fun c => in_path c \/ is_sign c) t -> ~ is_space t.
Proof.
  intros t Ht F. destruct t as [|c t]; [congruence|]. inversion F; subst. intros [(x & B & E)|(x & E & _)].
  - injection E as -> _. apply blank_facts in B. tauto.
  - injection E as -> _. rewrite path_nat in H1. unfold is_sign in H1. cbn in H1.
    destruct H1 as [H1|[H1|[H1|[]]]]; try discriminate. lia.
Qed.

Lemma inner_not_string : forall t, t <> [] -> Forall (fun c => in_path c \/ is_sign c) t ->
  forall q b, t = literal q b -> ~ body q b.
Proof.
  intros t Ht F q b -> _. unfold literal in F. inversion F; subst.
  destruct (quote_not_path _ (mark_quote q)). tauto.
Qed.

Lemma default_tail : forall t, ~ is_space t -> (forall l, In l (literals_1 ++ literals_2) -> t <> text (snd l)) ->
  (forall q b, t = literal q b -> ~ body q b) ->
  winner default_rules t = winner [(Of INTEGER, integer_re); (Of ID, id_re); (Of FLOAT_VAL, float_re); (Of FILE_NAME, file_re)] t.
Proof.
  intros t Hs Hl Hq. apply spaces_none in Hs as [Hs1 Hs2]. apply strings_none in Hq as [Hq1 Hq2].
  unfold default_rules.
  rewrite winner_skip; [|repeat constructor; assumption].
  rewrite winner_skip; [|apply literals_none; intros l I; apply Hl, in_or_app; auto].
  rewrite winner_skip; [|repeat constructor; assumption].
  rewrite winner_skip; [|apply literals_none; intros l I; apply Hl, in_or_app; auto].
  change [(SINGLE_QUOTED_STRING, single_re); (Of INTEGER, integer_re); (Of ID, id_re); (Of FLOAT_VAL, float_re); (Of FILE_NAME, file_re)]
    with ([(SINGLE_QUOTED_STRING, single_re)] ++ [(Of INTEGER, integer_re); (Of ID, id_re); (Of FLOAT_VAL, float_re); (Of FILE_NAME, file_re)]).
  apply winner_skip. repeat constructor. assumption.
Qed.

Lemma accepts_false : forall r t, ~ lang r t -> accepts r t = false.
Proof. intros r t H. destruct (accepts r t) eqn:E; auto. apply accepts_lang in E. contradiction. Qed.

Lemma accepts_true : forall r t, lang r t -> accepts r t = true.
Proof. intros r t H. now apply accepts_lang. Qed.

Lemma name_wins : forall t, is_name t -> ~ reserved true t -> winner default_rules t = Some (Of ID).
Proof.
  intros t Hn Hr. pose proof (name_path t Hn) as Hp. pose proof (path_inner t Hp) as Hi.
  assert (Ht : t <> []) by apply Hp.
  rewrite default_tail.
  - rewrite winner_cons, (accepts_false integer_re); [|rewrite lang_integer; intro D; now apply digits_not_name in D].
    rewrite winner_cons, (accepts_true id_re); [reflexivity|now apply lang_id].
  - now apply inner_not_space.
  - intros l I. now apply path_not_literal.
  - now apply inner_not_string.
Qed.

Lemma literal_kinds : forall l, In l (literals_1 ++ literals_2) ->
  (is_path (text (snd l)) -> is_name (text (snd l))) /\ ~ is_number (text (snd l)).
Proof.
  intros l I.
  assert (H : forallb (fun l : tkind * string =>
    (negb (accepts file_re (text (snd l))) || accepts id_re (text (snd l))) && negb (accepts float_re (text (snd l))))
    (literals_1 ++ literals_2) = true) by (vm_compute; reflexivity).
  rewrite forallb_forall in H. specialize (H l I). apply andb_prop in H as [H1 H2]. split.
  - intro P. apply lang_file in P. apply accepts_true in P. rewrite P in H1. cbn in H1.
    apply accepts_lang in H1. now apply lang_id.
  - intro N. apply lang_float in N. apply accepts_true in N. now rewrite N in H2.
Qed.

Lemma integer_wins : forall t, digits t -> winner default_rules t = Some (Of INTEGER).
Proof.
  intros t D. pose proof (digits_path t D) as Hp. pose proof (path_inner t Hp) as Hi.
  assert (Ht : t <> []) by apply Hp.
  rewrite default_tail.
  - rewrite winner_cons, (accepts_true integer_re); [reflexivity|now apply lang_integer].
  - now apply inner_not_space.
  - intros l I ->. apply (digits_not_name _ D). now apply literal_kinds.
  - now apply inner_not_string.
Qed.

Lemma number_nonempty : forall t, is_number t -> t <> [].
Proof.
  intros t (s & m & e & Hs & Hm & He & ->) E. apply app_eq_nil in E as [_ E]. apply app_eq_nil in E as [E _].
  subst m. inversion Hm; subst.
  - now destruct H.
  - destruct a; discriminate.
  - destruct a; discriminate.
Qed.

Lemma float_wins : forall t, is_number t -> ~ digits t -> ~ is_name t -> winner default_rules t = Some (Of FLOAT_VAL).
Proof.
  intros t N D Hn. pose proof (number_inner t N) as Hi. pose proof (number_nonempty t N) as Ht.
  rewrite default_tail.
  - rewrite winner_cons, (accepts_false integer_re); [|now rewrite lang_integer].
    rewrite winner_cons, (accepts_false id_re); [|now rewrite lang_id].
    rewrite winner_cons, (accepts_true float_re); [reflexivity|now apply lang_float].
  - now apply inner_not_space.
  - intros l I ->. revert N. now apply literal_kinds.
  - now apply inner_not_string.
Qed.

Lemma digits_number : forall t, digits t -> is_number t.
Proof.
  intros t D. exists [], t, []. rewrite app_nil_r. repeat split.
  - now left.
  - now constructor.
  - constructor.
Qed.

Lemma file_wins : forall t, is_path t -> ~ is_name t -> ~ is_number t -> winner default_rules t = Some (Of FILE_NAME).
Proof.
  intros t Hp Hn N. pose proof (path_inner t Hp) as Hi.
  assert (Ht : t <> []) by apply Hp.
  rewrite default_tail.
  - rewrite winner_cons, (accepts_false integer_re); [|rewrite lang_integer; intro D; now apply N, digits_number].
    rewrite winner_cons, (accepts_false id_re); [|now rewrite lang_id].
    rewrite winner_cons, (accepts_false float_re); [|now rewrite lang_float].
    rewrite winner_cons, (accepts_true file_re); [reflexivity|now apply lang_file].
  - now apply inner_not_space.
  - intros l I ->. apply Hn. now apply literal_kinds.
  - now apply inner_not_string.
Qed.

Lemma string_wins : forall q b m, written q b m -> winner default_rules (literal q b) = Some (Of STRING).
Proof.
  intros q b m W.
  assert (Hs : ~ is_space (literal q b)).
  { intros [(x & B & E)|(x & E & _)]; unfold literal in E; injection E.
    - destruct b; discriminate.
    - destruct q; discriminate. }
  apply spaces_none in Hs as [Hs1 Hs2]. unfold default_rules.
  rewrite winner_skip; [|repeat constructor; assumption].
  rewrite winner_skip; [|apply literals_none; intros l I E; apply (literal_not q b [mark q] l);
                          [apply in_or_app; auto|exact E]].
  apply winner_here. apply written_body in W.
  assert (L : lang (quoted_re q) (literal q b)) by (apply lang_quoted; eauto).
  destruct q; [now apply lang_left|now apply lang_right].
Qed.
