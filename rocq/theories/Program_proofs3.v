(** * What scripts do, from their text *)
From Coq Require Import ZArith Ascii String List Bool Arith Lia.
From Verif Require Import Interp Interp_spec Interp_proofs Interp_proofs4 Lexer Lexer_spec Lexer_proofs4 Lexer_proofs6
  Program Program_spec Program_proofs Program_proofs2.
Import ListNotations.
Local Open Scope list_scope.

(** ** The words of a text are words *)
Lemma words_leaves : forall t, words t = map as_word (leaves t).
Proof.
  fix IH 1. intros [k s|r l]; [reflexivity|]. cbn [words leaves].
  induction l as [|t l IHl]; [reflexivity|]. cbn [flat_map]. rewrite map_app, IH, IHl. reflexivity.
Qed.

Definition sound_word (w : tkind * list ascii) : Prop :=
  forall k, fst w = Of k -> lexeme k (string_of_list_ascii (snd w)) = true.

Lemma chars_ok : forall p t, Forall (fun c => p c = true) t -> all_chars p (string_of_list_ascii t) = true.
Proof. induction 1 as [|c t H _ IH]; [reflexivity|]. cbn. rewrite H, IH. reflexivity. Qed.

Lemma letter_ok : forall c, is_letter c -> file_char c = true.
Proof.
  intros c H. unfold is_letter in H. revert H. 
  destruct c as [[] [] [] [] [] [] [] []]; vm_compute; intros; try reflexivity; lia.
Qed.
Lemma digit_ok : forall c, is_digit c -> digit c = true /\ file_char c = true.
Proof.
  intros c H. unfold is_digit in H. revert H. 
  destruct c as [[] [] [] [] [] [] [] []]; vm_compute; intros; try (split; reflexivity); lia.
Qed.
Lemma name_ok : forall c, starts_name c -> file_char c = true.
Proof. intros c [H|[<-|[<-|[]]]]; [apply letter_ok; exact H|reflexivity|reflexivity]. Qed.
Lemma path_ok : forall c, in_path c -> file_char c = true.
Proof. intros c [H|[H| ->]]; [apply name_ok; exact H|apply digit_ok; exact H|reflexivity]. Qed.

Lemma nonempty_ok : forall t : list ascii, t <> [] -> negb (String.eqb (string_of_list_ascii t) "") = true.
Proof. intros [|c t] H; [contradiction|reflexivity]. Qed.

Lemma word_ok : forall k t, a_word true k t -> sound_word (k, t).
Proof.
  intros k t [k' s V|t' N _|t' [D1 D2]|t' _ _ _|t' [P1 P2] _ _|q b m W] k0 E; cbn [fst snd] in *.
  - subst k'. rewrite string_of_list_ascii_of_string. unfold lexeme.
    destruct k0; cbn in V; try discriminate V; injection V as <-; reflexivity.
  - injection E as <-. destruct N as (c & r & -> & C & R). unfold lexeme. cbn [fixed_text].
    rewrite nonempty_ok by discriminate. apply chars_ok. constructor; [apply name_ok; exact C|].
    eapply Forall_impl; [|exact R]. intros a [H|H]; [apply name_ok; exact H|apply digit_ok; exact H].
  - injection E as <-. unfold lexeme. cbn [fixed_text]. rewrite nonempty_ok by exact D1. apply chars_ok.
    eapply Forall_impl; [|exact D2]. intros a H. apply digit_ok; exact H.
  - injection E as <-. reflexivity.
  - injection E as <-. unfold lexeme. cbn [fixed_text]. rewrite nonempty_ok by exact P1. apply chars_ok.
    eapply Forall_impl; [|exact P2]. apply path_ok.
  - injection E as <-. reflexivity.
Qed.

Lemma balanced_ok : forall o e l, balanced o e l -> Forall sound_word l.
Proof.
  intros outer e l H. induction H as [outer|outer c e l N1 N2 B IH|outer e l e' l' B1 IH1 B2 IH2].
  - constructor.
  - constructor; [|exact IH]. intros k E. cbn [fst snd] in E. injection E as <-. destruct outer; reflexivity.
  - constructor; [intros k E; cbn [fst snd] in E; injection E as <-; destruct outer; reflexivity|].
    apply Forall_app. split; [exact IH1|]. constructor; [|exact IH2]. intros k E. injection E as <-. reflexivity.
Qed.

Lemma laid_ok : forall ws s, laid_out true ws s -> Forall sound_word ws.
Proof.
  intros ws s H. induction H as [|c ws s N1 N2 N3 IH|t ws s N1 N2 N3 IH|k t ws s W N1 N2 IH|e l ws s B N1 IH].
  - constructor.
  - exact IH.
  - exact IH.
  - constructor; [apply word_ok; exact W|exact IH].
  - constructor; [intros k E; injection E as <-; reflexivity|]. apply Forall_app. split; [exact (balanced_ok _ _ _ B)|].
    constructor; [|exact IH]. intros k E. injection E as <-. reflexivity.
Qed.

Lemma spelt_derives : forall s l, spells s l -> derives (t_items l).
Proof.
  intros s l H. apply d_items. apply laid_ok in H. rewrite words_leaves in H. unfold lexed. rewrite Forall_map in H.
  eapply Forall_impl; [|exact H]. intros [k t] A. specialize (A k eq_refl). cbn in A.
  rewrite string_of_list_ascii_of_string in A. exact A.
Qed.

(** ** One tree *)
Lemma as_word_inj : forall a b, as_word a = as_word b -> a = b.
Proof.
  intros [k s] [k' s'] H. unfold as_word in H. cbn [fst snd] in H. injection H as -> H.
  rewrite <- (string_of_list_ascii_of_string s), <- (string_of_list_ascii_of_string s'), H. reflexivity.
Qed.
Lemma map_as_word_inj : forall l m, map as_word l = map as_word m -> l = m.
Proof.
  induction l as [|a l IH]; intros [|b m] H; try discriminate; [reflexivity|].
  cbn [map] in H. injection H as H1 H2 H. f_equal; [apply as_word_inj; unfold as_word; congruence|apply IH; exact H].
Qed.

Lemma unambiguous : forall l l', derives (Node script l) -> derives (Node script l') ->
  words (Node script l) = words (Node script l') -> Node script l = Node script l'.
Proof.
  intros l l' D D' H. rewrite !words_leaves in H. apply map_as_word_inj in H.
  apply parsed in D. apply parsed in D'. destruct D as [is E], D' as [is' E']. rewrite E, E' in *.
  unfold t_items in *. f_equal. exact (items_code is is' H).
Qed.

Lemma text_parses : forall s l, spells s l -> parses s (t_items l) /\ forall t, parses s t -> t = t_items l.
Proof.
  intros s l H. pose proof (spelt_derives s l H) as D. destruct (read_laid _ _ H) as (E & _ & A). split.
  - split; [unfold t_items; eexists; reflexivity|]. split; [exact D|]. split; [|exact A].
    rewrite E. symmetry. apply words_leaves.
  - intros t ((m & ->) & D' & E' & _). unfold t_items in *. apply unambiguous; [exact D'|exact D|].
    rewrite words_leaves, E', E. reflexivity.
Qed.

Lemma layout_parses : forall s s' l t, spells s l -> spells s' l -> (parses s t <-> parses s' t).
Proof.
  intros s s' l t H H'. destruct (text_parses s l H) as [A B], (text_parses s' l H') as [A' B'].
  split; intros P; [rewrite (B t P)|rewrite (B' t P)]; assumption.
Qed.

(** ** Several files *)
Lemma main_done : forall world ask ss ls, Forall2 spells ss ls ->
  Forall (Forall (fun i => sound_item i = true)) ls -> forall w f,
  main world ask ss w f <-> f = ends (all_scripts world ask ls w).
Proof.
  intros world ask. induction 1 as [|s l ss ls S F IH]; intros G w f.
  - cbn. split; [inversion 1; reflexivity|intros ->; constructor].
  - apply Forall_cons_iff in G. destruct G as [G1 G2]. specialize (IH G2).
    destruct (text_parses s l S) as [P U].
    pose proof (script_done world ask l G1 (spelt_derives s l S) w) as M.
    cbn [all_scripts]. destruct (script_meaning world ask l (Core world [] [] w)) as [[] c|e c]; cbn [as_spelt] in M.
    + split.
      * inversion 1; subst.
        -- match goal with Q : parses s ?t |- _ => rewrite (U t Q) in * end.
           match goal with R : Interp.run _ _ _ _ = _ |- _ => rewrite M in R; injection R as <- end.
           apply IH. assumption.
        -- match goal with Q : parses s ?t |- _ => rewrite (U t Q) in * end.
           match goal with R : Interp.run _ _ _ _ = _ |- _ => rewrite M in R; discriminate R end.
        -- match goal with N : forall t, ~ _ |- _ => contradiction (N _ P) end.
      * intros ->. eapply main_next; [exact P|exact M|]. apply IH. reflexivity.
    + split.
      * inversion 1; subst.
        -- match goal with Q : parses s ?t |- _ => rewrite (U t Q) in * end.
           match goal with R : Interp.run _ _ _ _ = _ |- _ => rewrite M in R; discriminate R end.
        -- match goal with Q : parses s ?t |- _ => rewrite (U t Q) in * end.
           match goal with R : Interp.run _ _ _ _ = _ |- _ => rewrite M in R; injection R as <- <- end.
           reflexivity.
        -- match goal with N : forall t, ~ _ |- _ => contradiction (N _ P) end.
      * intros ->. eapply main_stop; [exact P|exact M].
Qed.

(** ** A script that is not done as spelt *)
Definition swapped : list item := [Command (Set_ "n" (SetParams (POne (PInt "5")))); Command (Integration (NInt "1") (LVar "n") None)].

Lemma swapped_spelt : spells (text "set n 5; integration maq 1 $n;") swapped.
Proof.
  unfold spells, swapped. cbn [words t_items map t_cmd t_body flat_map app kw fixed_text t_params t_param t_number t_limit t_var opt].
  fixed (Of SET) "set"%string. blank. name "n"%string. blank. number "5"%string. fixed (Of SEMICOLON) ";"%string. blank.
  fixed (Of INTEGRATION) "integration"%string. blank. fixed (Of MAQ) "maq"%string. blank. number "1"%string. blank.
  apply (laid_word _ (Of DOLLARS) (text "$")); [apply word_fixed; reflexivity|apply separated_dollar; discriminate|].
  name "n"%string. fixed (Of SEMICOLON) ";"%string. constructor.
Qed.

Lemma refute_program : exists s l, spells s l /\
  main log write_down [s] [] (Finished [("IntegrationSettings"%string, [VInt 5%Z; VInt 1%Z])]) /\
  ends (all_scripts log write_down [l] []) = Finished [("IntegrationSettings"%string, [VInt 1%Z; VInt 5%Z])].
Proof.
  exists (text "set n 5; integration maq 1 $n;"), swapped. split; [exact swapped_spelt|].
  destruct (text_parses _ _ swapped_spelt) as [P _]. split; [|vm_compute; reflexivity].
  eapply main_next; [exact P|vm_compute; reflexivity|]. vm_compute. constructor.
Qed.

(** ** Texts that are no scripts *)
Lemma refused : forall world ask ws s ss w f, laid_out true ws s -> (forall l, words (t_items l) <> ws) ->
  main world ask (s :: ss) w f -> f = Misread w.
Proof.
  intros world ask ws s ss w f L N H. destruct (read_laid _ _ L) as (E & _).
  assert (U : forall t, ~ parses s t).
  { intros t ((m & ->) & D & E' & _). apply parsed in D. destruct D as [is D]. apply (N is).
    rewrite <- D, words_leaves, E', E. reflexivity. }
  inversion H; subst; try reflexivity; match goal with Q : parses s _ |- _ => contradiction (U _ Q) end.
Qed.

Lemma prefix_items : forall l l' w, lv (map t_item l') ++ [w] = lv (map t_item l) -> fst w <> SEMICOLON.
Proof.
  assert (S : forall i s, leaves (t_item i) ++ s <> [] /\ match leaves (t_item i) ++ s with (k, _) :: _ => k <> SEMICOLON | [] => True end).
  { intros [v|c] s; cbn [t_item]; [split; discriminate|].
    destruct c; try (split; discriminate). destruct p as [|r|]; [|destruct r|]; split; discriminate. }
  induction l as [|i l IH]; intros [|i' l'] w H; cbn [map lv flat_map app] in H.
  - discriminate H.
  - rewrite <- app_assoc in H. contradiction (proj1 (S i' _) H).
  - destruct (S i (flat_map leaves (map t_item l))) as [_ B]. rewrite <- H in B. destruct w. exact B.
  - rewrite <- app_assoc in H. sub item_code H. exact (IH _ _ H).
Qed.

Lemma unterminated : forall world ask l ws s ss w f, laid_out true ws s ->
  words (t_items l) = ws ++ [(Of SEMICOLON, text ";")] -> main world ask (s :: ss) w f -> f = Misread w.
Proof.
  intros world ask l ws s ss w f L W. apply (refused world ask ws); [exact L|]. intros l' E. subst ws.
  rewrite !words_leaves in W. change [(Of SEMICOLON, text ";")] with (map as_word [(SEMICOLON, ";"%string)]) in W.
  rewrite <- map_app in W. apply map_as_word_inj in W.
  exact (prefix_items l l' _ (eq_sym W) eq_refl).
Qed.

Lemma main_function : forall world ask ss w f f', main world ask ss w f -> main world ask ss w f' -> f = f'.
Proof.
  intros world ask ss w f f' H. revert f'.
  assert (U : forall s t t', parses s t -> parses s t' -> t = t').
  { intros s t t' ((l & ->) & D & E & _) ((l' & ->) & D' & E' & _). apply unambiguous; [exact D|exact D'|].
    rewrite !words_leaves, E, E'. reflexivity. }
  induction H as [w|s t l w st f P R M IH|s t l w e c P R|s l w N]; intros f' H'; inversion H'; subst.
  - reflexivity.
  - match goal with Q : parses s ?t' |- _ => rewrite <- (U s t t' P Q) in * end.
    match goal with Q : Interp.run _ _ _ _ = _ |- _ => rewrite R in Q; injection Q as <- end. apply IH. assumption.
  - match goal with Q : parses s ?t' |- _ => rewrite <- (U s t t' P Q) in * end.
    match goal with Q : Interp.run _ _ _ _ = _ |- _ => rewrite R in Q; discriminate Q end.
  - match goal with Q : forall t, ~ _ |- _ => contradiction (Q _ P) end.
  - match goal with Q : parses s ?t' |- _ => rewrite <- (U s t t' P Q) in * end.
    match goal with Q : Interp.run _ _ _ _ = _ |- _ => rewrite R in Q; discriminate Q end.
  - match goal with Q : parses s ?t' |- _ => rewrite <- (U s t t' P Q) in * end.
    match goal with Q : Interp.run _ _ _ _ = _ |- _ => rewrite R in Q; injection Q as <- <- end. reflexivity.
  - match goal with Q : forall t, ~ _ |- _ => contradiction (Q _ P) end.
  - match goal with Q : parses s _ |- _ => contradiction (N _ Q) end.
  - match goal with Q : parses s _ |- _ => contradiction (N _ Q) end.
  - reflexivity.
Qed.

(** ** Examples *)
Definition one_im (x : string) : list item := [Command (Im x "f")].
Lemma first_spelt : spells (text "im a f;") (one_im "a").
Proof.
  fixed (Of IM) "im"%string. blank. name "a"%string. blank. name "f"%string. fixed (Of SEMICOLON) ";"%string. constructor.
Qed.
Lemma second_spelt : spells ("010"%char :: text "im b   f ;") (one_im "b").
Proof.
  blank. fixed (Of IM) "im"%string. blank. name "b"%string. blank. blank. blank. name "f"%string. blank. fixed (Of SEMICOLON) ";"%string. constructor.
Qed.
