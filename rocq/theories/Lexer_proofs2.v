(** * Proofs about the lexer: words *)
From Coq Require Import Ascii String List Bool Arith Lia.
From Verif Require Import Interp Lexer Literal Literal_spec Lexer_spec Lexer_proofs.
Import ListNotations.
Local Open Scope list_scope.

(** ** Classes of characters *)
Lemma char_nat : forall c d, c = d <-> nat_of_ascii c = nat_of_ascii d.
Proof.
  intros c d; split; intro H; [now subst|].
  rewrite <- (ascii_nat_embedding c), <- (ascii_nat_embedding d). now rewrite H.
Qed.

Lemma digit_iff : forall c, digit c = true <-> is_digit c.
Proof.
  intro c. unfold digit, is_digit. rewrite andb_true_iff, !Nat.leb_le. tauto.
Qed.

Lemma starts_nat : forall c, starts_name c <->
  (65 <= nat_of_ascii c <= 90 \/ 97 <= nat_of_ascii c <= 122 \/ nat_of_ascii c = 95 \/ nat_of_ascii c = 46).
Proof.
  intro c. unfold starts_name, is_letter. cbn [In].
  pose proof (char_nat "_" c) as H1. pose proof (char_nat "." c) as H2.
  change (nat_of_ascii "_") with 95 in H1. change (nat_of_ascii ".") with 46 in H2.
  rewrite H1, H2. lia.
Qed.

Lemma path_nat : forall c, in_path c <->
  (46 <= nat_of_ascii c <= 57 \/ 65 <= nat_of_ascii c <= 90 \/ 97 <= nat_of_ascii c <= 122 \/ nat_of_ascii c = 95).
Proof.
  intro c. unfold in_path, is_digit. rewrite starts_nat.
  pose proof (char_nat c "/") as H1. change (nat_of_ascii "/") with 47 in H1.
  rewrite H1. lia.
Qed.

Lemma nondigit_iff : forall c, nondigit c = true <-> starts_name c.
Proof.
  intro c. rewrite starts_nat. unfold nondigit.
  rewrite !orb_true_iff, !andb_true_iff, !Nat.leb_le, !Nat.eqb_eq. tauto.
Qed.

Lemma file_char_iff : forall c, file_char c = true <-> in_path c.
Proof.
  intro c. rewrite path_nat. unfold file_char.
  rewrite !orb_true_iff, !andb_true_iff, !Nat.leb_le, !Nat.eqb_eq. tauto.
Qed.

Lemma name_path : forall t, is_name t -> is_path t.
Proof.
  intros t (c & r & -> & Hc & Hr). split; [discriminate|]. constructor; [now left|].
  eapply Forall_impl; [|exact Hr]. cbn. unfold in_path. tauto.
Qed.

Lemma digits_path : forall t, digits t -> is_path t.
Proof. intros t [Ht H]. split; auto. eapply Forall_impl; [|exact H]. unfold in_path. tauto. Qed.

Lemma digits_not_name : forall t, digits t -> ~ is_name t.
Proof.
  intros t [Ht H] (c & r & -> & Hc & _). inversion H; subst. rewrite starts_nat in Hc. unfold is_digit in *. lia.
Qed.

(** ** The languages of the rules *)
Lemma lang_chars : forall l t, lang (chars l) t <-> t = l.
Proof.
  induction l as [|c l IH]; intro t; cbn; split; intro H.
  - now apply lang_nil_inv.
  - subst. constructor.
  - apply lang_then_inv in H as (x & y & -> & Hx & Hy). apply lang_this in Hx. apply IH in Hy. now subst.
  - subst. change (c :: l) with ([c] ++ l). constructor; [now apply lang_this|now apply IH].
Qed.

Lemma lang_word : forall s t, lang (word s) t <-> t = text s.
Proof. intros s t. apply lang_chars. Qed.

Lemma lang_many : forall p t, lang (Many (Char p)) t <-> Forall (fun c => p c = true) t.
Proof.
  intros p t; split.
  - induction t as [|c t IH]; intro H; auto.
    apply lang_many_cons in H as (x & y & -> & Hx & Hy).
    apply lang_char_inv in Hx as (d & [= <- ->] & E). cbn in *. constructor; auto.
  - induction 1; [constructor|]. change (x :: l) with ([x] ++ l). constructor; auto. now constructor.
Qed.

Lemma lang_some : forall p t, lang (some (Char p)) t <-> t <> [] /\ Forall (fun c => p c = true) t.
Proof.
  intros p t; split.
  - intro H. apply lang_then_inv in H as (x & y & -> & Hx & Hy).
    apply lang_char_inv in Hx as (d & -> & E). apply lang_many in Hy. split; [discriminate|]. now constructor.
  - intros [Ht H]. destruct t as [|c t]; [congruence|]. inversion H; subst.
    change (c :: t) with ([c] ++ t). constructor; [now constructor|now apply lang_many].
Qed.

Lemma Forall_iff : forall (A : Type) (P Q : A -> Prop) l, (forall a, P a <-> Q a) -> (Forall P l <-> Forall Q l).
Proof. intros A P Q l H. split; intro F; eapply Forall_impl; try exact F; intros a; apply H. Qed.

Lemma lang_integer : forall t, lang integer_re t <-> digits t.
Proof.
  intro t. unfold integer_re. rewrite lang_some. unfold digits.
  rewrite (Forall_iff _ _ _ t digit_iff). tauto.
Qed.

Lemma lang_file : forall t, lang file_re t <-> is_path t.
Proof.
  intro t. unfold file_re. rewrite lang_some. unfold is_path.
  rewrite (Forall_iff _ _ _ t file_char_iff). tauto.
Qed.

Lemma lang_name_rest : forall t, lang (Many (Or (Char nondigit) (Char digit))) t <->
  Forall (fun c => starts_name c \/ is_digit c) t.
Proof.
  intro t; split.
  - induction t as [|c t IH]; intro H; auto.
    apply lang_many_cons in H as (x & y & -> & Hx & Hy).
    apply lang_or_inv in Hx as [Hx|Hx]; apply lang_char_inv in Hx as (d & [= <- ->] & E); cbn in *; constructor; auto.
    + left. now apply nondigit_iff.
    + right. now apply digit_iff.
  - induction 1; [constructor|]. change (x :: l) with ([x] ++ l). constructor; auto.
    destruct H; [apply lang_left; constructor; now apply nondigit_iff|apply lang_right; constructor; now apply digit_iff].
Qed.

Lemma lang_id : forall t, lang id_re t <-> is_name t.
Proof.
  intro t; split.
  - intro H. apply lang_then_inv in H as (x & y & -> & Hx & Hy).
    apply lang_char_inv in Hx as (d & -> & E). apply lang_name_rest in Hy. apply nondigit_iff in E.
    exists d, y. auto.
  - intros (c & r & -> & Hc & Hr). change (c :: r) with ([c] ++ r). constructor.
    + constructor. now apply nondigit_iff.
    + now apply lang_name_rest.
Qed.

Lemma lang_maybe : forall a t, lang (maybe a) t <-> t = [] \/ lang a t.
Proof.
  intros a t; split.
  - intro H. apply lang_or_inv in H as [H|H]; [left; now apply lang_nil_inv|auto].
  - intros [->|H]; [apply lang_left; constructor|now apply lang_right].
Qed.

Lemma lang_sign : forall t, lang (maybe sign_re) t <-> sign t.
Proof.
  intro t. rewrite lang_maybe. unfold sign, is_sign. cbn [In]. split.
  - intros [->|H]; [auto|right]. apply lang_or_inv in H as [H|H]; apply lang_this in H; subst; eauto 6.
  - intros [->|(c & [<-|[<-|[]]] & ->)]; auto; right;
      [apply lang_right|apply lang_left]; now apply lang_this.
Qed.

Lemma lang_fraction : forall t, lang fraction_re t <-> mantissa t.
Proof.
  intro t; split.
  - intro H. apply lang_or_inv in H as [H|H].
    + apply lang_then_inv in H as (x & y & -> & Hx & Hy). apply lang_integer in Hx.
      apply lang_maybe in Hy as [->|Hy]; [rewrite app_nil_r; now constructor|].
      apply lang_then_inv in Hy as (u & v & -> & Hu & Hv). apply lang_this in Hu. subst u.
      apply lang_maybe in Hv as [->|Hv]; [now constructor|].
      apply lang_integer in Hv. now constructor.
    + apply lang_then_inv in H as (x & y & -> & Hx & Hy). apply lang_this in Hx. subst x.
      apply lang_integer in Hy. now constructor.
  - intro H. destruct H.
    + apply lang_left. rewrite <- (app_nil_r a). constructor; [now apply lang_integer|]. apply lang_maybe; auto.
    + apply lang_left. constructor; [now apply lang_integer|]. apply lang_maybe; right.
      change ["."%char] with (["."%char] ++ []). constructor; [now apply lang_this|]. apply lang_maybe; auto.
    + apply lang_left. constructor; [now apply lang_integer|]. apply lang_maybe; right.
      change ("."%char :: b) with (["."%char] ++ b). constructor; [now apply lang_this|].
      apply lang_maybe; right. now apply lang_integer.
    + apply lang_right. change ("."%char :: b) with (["."%char] ++ b).
      constructor; [now apply lang_this|now apply lang_integer].
Qed.

Lemma lang_exponent : forall t, lang (maybe exponent_re) t <-> exponent t.
Proof.
  intro t. rewrite lang_maybe. split.
  - intros [->|H]; [constructor|].
    apply lang_then_inv in H as (x & y & -> & Hx & Hy).
    apply lang_then_inv in Hy as (u & v & -> & Hu & Hv). apply lang_sign in Hu. apply lang_integer in Hv.
    apply lang_or_inv in Hx as [H|H]; apply lang_this in H; subst x; cbn; constructor; cbn; auto.
  - intro H. destruct H as [|c s d Hc Hs Hd]; auto. right.
    change (c :: s ++ d) with ([c] ++ s ++ d). constructor.
    + cbn in Hc. destruct Hc as [<-|[<-|[]]]; [apply lang_left|apply lang_right]; now apply lang_this.
    + constructor; [now apply lang_sign|now apply lang_integer].
Qed.

Lemma lang_float : forall t, lang float_re t <-> is_number t.
Proof.
  intro t; split.
  - intro H. apply lang_then_inv in H as (x & y & -> & Hx & Hy).
    apply lang_then_inv in Hy as (u & v & -> & Hu & Hv).
    exists x, u, v. rewrite <- lang_sign, <- lang_fraction, <- lang_exponent. auto.
  - intros (s & m & e & Hs & Hm & He & ->). constructor; [now apply lang_sign|].
    constructor; [now apply lang_fraction|now apply lang_exponent].
Qed.

Lemma line_iff : forall c,
  negb (Ascii.eqb c return_) && negb (Ascii.eqb c newline) = true <-> ~ ends_line c.
Proof.
  intro c. unfold ends_line, return_, newline. cbn [In].
  rewrite andb_true_iff, !negb_true_iff, !Ascii.eqb_neq. intuition congruence.
Qed.

Lemma lang_comment : forall t, lang comment_re t <->
  exists r, t = "#"%char :: r /\ Forall (fun c => ~ ends_line c) r.
Proof.
  intro t; split.
  - intro H. apply lang_then_inv in H as (x & y & -> & Hx & Hy). apply lang_this in Hx. subst x.
    apply lang_many in Hy. rewrite (Forall_iff _ _ _ y line_iff) in Hy. exists y. auto.
  - intros (r & -> & Hr). change ("#"%char :: r) with (["#"%char] ++ r).
    constructor; [now apply lang_this|]. apply lang_many. now rewrite (Forall_iff _ _ _ r line_iff).
Qed.

Lemma lang_ws : forall t, lang ws_re t <-> is_space t.
Proof.
  intro t. unfold is_space. rewrite <- lang_comment. split.
  - intro H. do 4 (apply lang_or_inv in H as [H|H]; [apply lang_this in H; left; eexists; split; [|exact H];
      unfold is_blank; cbn; auto 6|]). auto.
  - intros [(c & Hc & ->)|H].
    + unfold is_blank in Hc. cbn in Hc. unfold ws_re.
      destruct Hc as [<-|[<-|[<-|[<-|[]]]]].
      * apply lang_left. now apply lang_this.
      * apply lang_right, lang_left. now apply lang_this.
      * apply lang_right, lang_right, lang_left. now apply lang_this.
      * apply lang_right, lang_right, lang_right, lang_left. now apply lang_this.
    + repeat apply lang_right. exact H.
Qed.

(** ** Strings *)
Definition quoted_re (q : quote) : re := match q with Single => single_re | Double => double_re end.

(** What may stand between the quotes (slatLexer.g4 128–149). *)
Inductive body (q : quote) : list ascii -> Prop :=
| body_end : body q []
| body_plain : forall c b, unescaped q c = true -> body q b -> body q (c :: b)
| body_escape : forall c b, escapable q c = true -> body q b -> body q ("\"%char :: c :: b).

Definition element_re (q : quote) : re :=
  match q with
  | Single => Or (Char (fun c => negb (Ascii.eqb c "'"))) (Or (word "\'") (word "\\"))
  | Double => Or (Char (fun c => negb (Ascii.eqb c "\") && negb (Ascii.eqb c """"))) (Or (word "\""") (word "\\"))
  end.

Lemma lang_element : forall q t, lang (element_re q) t <->
  (exists c, t = [c] /\ unescaped q c = true) \/ (exists c, t = ["\"%char; c] /\ escapable q c = true).
Proof.
  intros q t; split.
  - intro H. destruct q.
    + apply lang_or_inv in H as [H|H]; [left; now apply lang_char_inv in H|right].
      apply lang_or_inv in H as [H|H]; apply lang_word in H; subst; eexists; (split; [reflexivity|reflexivity]).
    + apply lang_or_inv in H as [H|H]; [left; now apply lang_char_inv in H|right].
      apply lang_or_inv in H as [H|H]; apply lang_word in H; subst; eexists; (split; [reflexivity|reflexivity]).
  - intros [(c & -> & H)|(c & -> & H)].
    + destruct q; apply lang_left; now constructor.
    + unfold escapable in H. apply orb_prop in H.
      destruct q; cbn [mark] in H; destruct H as [H|H]; apply Ascii.eqb_eq in H; subst c; cbn [element_re];
        apply lang_right; (apply lang_left; apply lang_word; reflexivity) || (apply lang_right; apply lang_word; reflexivity).
Qed.

Lemma lang_body : forall q b, lang (Many (element_re q)) b <-> body q b.
Proof.
  intros q b; split.
  - remember (length b) as n eqn:En. revert b En.
    induction n as [n IH] using lt_wf_ind. intros b -> H.
    destruct b as [|c b]; [constructor|].
    apply lang_many_cons in H as (x & y & -> & Hx & Hy).
    assert (Hb : body q y) by (apply (IH (length y)); auto; cbn; rewrite app_length; lia).
    apply lang_element in Hx as [(d & [= <- ->] & E)|(d & [= -> ->] & E)]; cbn.
    + now constructor.
    + now constructor.
  - induction 1 as [|c b E Hb IH|c b E Hb IH].
    + constructor.
    + change (c :: b) with ([c] ++ b). constructor; auto. apply lang_element. left. eauto.
    + change ("\"%char :: c :: b) with (["\"%char; c] ++ b). constructor; auto. apply lang_element. right. eauto.
Qed.

Lemma lang_quoted : forall q t, lang (quoted_re q) t <-> exists b, t = literal q b /\ body q b.
Proof.
  intros q t.
  assert (E : quoted_re q = Then (this (mark q)) (Then (Many (element_re q)) (this (mark q)))) by (destruct q; reflexivity).
  rewrite E. split.
  - intro H. apply lang_then_inv in H as (x & y & -> & Hx & Hy).
    apply lang_then_inv in Hy as (u & v & -> & Hu & Hv).
    apply lang_this in Hx, Hv. subst. exists u. split; [reflexivity|]. now apply lang_body.
  - intros (b & -> & Hb). unfold literal. change (mark q :: b ++ [mark q]) with ([mark q] ++ b ++ [mark q]).
    constructor; [now apply lang_this|]. constructor; [now apply lang_body|now apply lang_this].
Qed.

Lemma written_body : forall q b m, written q b m -> body q b.
Proof.
  induction 1; [constructor| | |].
  - apply body_plain; auto. destruct q; cbn in *.
    + now rewrite negb_true_iff, Ascii.eqb_neq.
    + now rewrite andb_true_iff, !negb_true_iff, !Ascii.eqb_neq.
  - apply body_escape; auto. unfold escapable. now rewrite Ascii.eqb_refl.
  - apply body_escape; auto. unfold escapable. now rewrite orb_true_r.
Qed.

(** A quote inside a string comes after a backslash. *)
Lemma body_quote : forall q b, body q b -> forall u v, b = u ++ mark q :: v -> ends_with_backslash u.
Proof.
  induction 1 as [|c b E Hb IH|c b E Hb IH]; intros u v Eu.
  - destruct u; discriminate.
  - destruct u as [|d u]; cbn in Eu; injection Eu as -> Eu.
    + exfalso. destruct q; discriminate.
    + destruct (IH u v Eu) as [r ->]. exists (d :: r). reflexivity.
  - destruct u as [|d u]; cbn in Eu; injection Eu as Ed Eu; [destruct q; discriminate|]. subst d.
    destruct u as [|d u]; cbn in Eu; injection Eu as Ed Eu; [exists []; reflexivity|]. subst d.
    destruct (IH u v Eu) as [r ->]. exists ("\"%char :: c :: r). reflexivity.
Qed.

(** A double-quoted string ends at the first quote that is not escaped. *)
Lemma double_end : forall b m, written Double b m -> forall b' p, body Double b' ->
  b' ++ [""""%char] = b ++ """"%char :: p -> p = [].
Proof.
  induction 1 as [|c b m N1 N2 Hb IH|b m Hb IH|b m Hb IH]; intros b' p Hb' E.
  - destruct Hb' as [|d b' U Hb'|d b' U Hb']; cbn in E.
    + now injection E as <-.
    + injection E as -> E. discriminate.
    + discriminate.
  - destruct Hb' as [|d b' U Hb'|d b' U Hb']; cbn in E; injection E as E1 E2.
    + symmetry in E1. contradiction.
    + eapply IH; eauto.
    + symmetry in E1. contradiction.
  - destruct Hb' as [|d b' U Hb'|d b' U Hb']; cbn in E; try discriminate.
    + injection E as -> E. discriminate.
    + injection E as -> E. eapply IH; eauto.
  - destruct Hb' as [|d b' U Hb'|d b' U Hb']; cbn in E; try discriminate.
    + injection E as -> E. discriminate.
    + injection E as -> E. eapply IH; eauto.
Qed.
