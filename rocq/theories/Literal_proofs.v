(** * Proofs about strings in scripts (C70) *)
From Coq Require Import Ascii String List Bool Arith Lia.
From Verif Require Import Interp Literal Literal_spec.
Import ListNotations.
Local Open Scope char_scope.
Local Open Scope list_scope.

(** ** The lexer *)

Lemma eqb_refl : forall c, Ascii.eqb c c = true. Proof. intros. apply Ascii.eqb_refl. Qed.
Lemma eqb_neq : forall a b, a <> b -> Ascii.eqb a b = false. Proof. intros. apply Ascii.eqb_neq. auto. Qed.
Lemma mark_bs : forall q, mark q <> "\". Proof. destruct q; discriminate. Qed.

Definition ends_bs (e : bool) (b : list ascii) : bool := match rev b with [] => e | c :: _ => Ascii.eqb c "\" end.

Lemma ends_bs_cons : forall e c b, ends_bs e (c :: b) = ends_bs (Ascii.eqb c "\") b.
Proof. intros. unfold ends_bs. cbn [rev]. destruct (rev b); reflexivity. Qed.

(** Through the text of a literal, the lexer stays inside. *)
Lemma single_through : forall b m, written Single b m -> forall e n best r, exists best',
  longest Single true e n best (b ++ r) = longest Single true (ends_bs e b) (n + length b) best' r.
Proof.
  induction 1 as [|c b m H1 H2 W IH|b m W IH|b m W IH]; intros e n best r.
  - exists best. cbn. rewrite Nat.add_0_r. reflexivity.
  - rewrite ends_bs_cons. cbn [app longest length unescaped mark]. cbn [mark] in H1.
    rewrite (eqb_neq c "'") by auto. rewrite (eqb_neq c "\") by auto. cbn [andb negb orb].
    destruct (IH false (S n) best r) as (b' & ->). exists b'. f_equal. lia.
  - rewrite !ends_bs_cons. cbn -[ends_bs longest]. cbn [longest]. cbn -[ends_bs longest].
    destruct e; cbn -[ends_bs longest];
    (destruct (IH false (S (S n)) (Some (S (S n))) r) as (b' & ->); exists b'; f_equal; lia).
  - rewrite !ends_bs_cons. cbn -[ends_bs longest]. cbn [longest]. cbn -[ends_bs longest].
    destruct e; cbn -[ends_bs longest];
    (destruct (IH true (S (S n)) best r) as (b' & ->); exists b'; f_equal; lia).
Qed.

Lemma double_through : forall b m, written Double b m -> forall n best r, exists best',
  longest Double true false n best (b ++ r) = longest Double true false (n + length b) best' r.
Proof.
  induction 1 as [|c b m H1 H2 W IH|b m W IH|b m W IH]; intros n best r.
  - exists best. cbn. rewrite Nat.add_0_r. reflexivity.
  - cbn [app longest length unescaped mark]. cbn [mark] in H1.
    rewrite (eqb_neq c """") by auto. rewrite (eqb_neq c "\") by auto. cbn [andb negb orb].
    destruct (IH (S n) best r) as (b' & ->). exists b'. f_equal. lia.
  - cbn -[longest]. cbn [longest]. cbn -[longest].
    destruct (IH (S (S n)) best r) as (b' & ->). exists b'. f_equal. lia.
  - cbn -[longest]. cbn [longest]. cbn -[longest].
    destruct (IH (S (S n)) best r) as (b' & ->). exists b'. f_equal. lia.
Qed.

(** After a possible end, a quote further on makes the match longer. *)
Lemma longest_more : forall r i e n k, (k <= n)%nat -> exists k', longest Single i e n (Some k) r = Some k' /\ (k <= k')%nat.
Proof.
  induction r as [|c r IH]; intros i e n k H; cbn [longest]; [exists k; auto|].
  destruct (i && Ascii.eqb c (mark Single)).
  - destruct (_ || _); [|exists (S n); split; auto; lia]. destruct (IH (i && unescaped Single c || e && escapable Single c) (i && Ascii.eqb c "\") (S n) (S n)) as (k' & E & L); auto.
    exists k'. split; auto. lia.
  - destruct (_ || _); [|exists k; auto]. apply IH. lia.
Qed.

Lemma single_none : forall r e n best, ~ In "'" r -> longest Single true e n best r = best.
Proof.
  induction r as [|c r IH]; intros e n best H; [reflexivity|]. cbn [longest mark unescaped].
  assert (c <> "'") by (intros ->; apply H; left; auto). rewrite (eqb_neq c "'") by auto. cbn [andb negb orb].
  apply IH. intros K. apply H. right. auto.
Qed.

Lemma single_some : forall r e n k, In "'" r -> (k <= n)%nat ->
  exists k', longest Single true e n (Some k) r = Some k' /\ (k < k')%nat.
Proof.
  induction r as [|c r IH]; intros e n k H L; [contradiction|]. cbn [longest mark unescaped].
  destruct (ascii_dec c "'") as [->|N].
  - rewrite eqb_refl. cbn [andb]. destruct (_ || _); [|exists (S n); split; auto; lia].
    destruct (longest_more r (negb true || e && escapable Single "'") (true && Ascii.eqb "'" "\") (S n) (S n)) as (k' & E & K); auto.
    cbn in E |- *. rewrite E. exists k'. split; auto. lia.
  - rewrite (eqb_neq c "'") by auto. cbn [andb negb orb]. apply IH; [|lia]. destruct H; [congruence|auto].
Qed.

Lemma ends_bs_iff : forall b, ends_bs false b = true <-> ends_with_backslash b.
Proof.
  intros b. unfold ends_bs, ends_with_backslash. split.
  - intros H. destruct (rev b) as [|c l] eqn:E; [discriminate|]. apply Ascii.eqb_eq in H. subst c.
    exists (rev l). rewrite <- (rev_involutive b), E. reflexivity.
  - intros (r & ->). rewrite rev_app_distr. reflexivity.
Qed.

Lemma firstn_lit : forall q b r, (mark q :: firstn (S (length b)) (b ++ mark q :: r), skipn (S (length b)) (b ++ mark q :: r)) = (literal q b, r).
Proof.
  intros q b r. unfold literal. f_equal.
  - f_equal. rewrite firstn_app. replace (S (length b) - length b)%nat with 1%nat by lia. rewrite firstn_all2 by lia. reflexivity.
  - rewrite skipn_app. replace (S (length b) - length b)%nat with 1%nat by lia. rewrite skipn_all2 by lia. reflexivity.
Qed.

Lemma literal_app : forall q b r, literal q b ++ r = mark q :: b ++ mark q :: r.
Proof. intros. unfold literal. cbn [app]. rewrite <- app_assoc. reflexivity. Qed.

Lemma skip_length : forall (A : Type) (l : list A) n, length (skipn n l) = (length l - n)%nat.
Proof. intros. apply skipn_length. Qed.

Theorem lexed : forall q b m r, written q b m ->
  (lex_string (literal q b ++ r) = Some (literal q b, r) <-> ~ (q = Single /\ ends_with_backslash b /\ In "'" r)).
Proof.
  intros q b m r W. rewrite literal_app. destruct q.
  - cbn [lex_string mark]. rewrite eqb_refl.
    destruct (single_through b m W false 0 None ("'" :: r)) as (best & E). rewrite E. cbn [Nat.add].
    cbn [longest mark unescaped]. rewrite eqb_refl. cbn [andb negb orb].
    destruct (ends_bs false b) eqn:B; cbn.
    + assert (EB := proj1 (ends_bs_iff b) B). destruct (in_dec ascii_dec "'" r) as [I|I].
      * destruct (single_some r false (S (length b)) (S (length b)) I) as (k & Ek & L); auto. rewrite Ek. cbn [option_map].
        split; [|intros H; exfalso; apply H; auto]. intros H. exfalso. inversion H as [[H1 H2]].
        assert (Q : length (firstn k (b ++ "'" :: r)) = length (b ++ ["'"])) by congruence.
        rewrite firstn_length, !app_length in Q. cbn [length] in Q.
        assert (length r <> 0)%nat by (destruct r; [contradiction|discriminate]). lia.
      * rewrite single_none by auto. cbn [option_map]. split; [tauto|]. intros _. f_equal. apply (firstn_lit Single).
    + split; [|intros _; f_equal; apply (firstn_lit Single)]. intros _ (_ & K & _).
      apply ends_bs_iff in K. congruence.
  - cbn [lex_string mark]. rewrite (eqb_neq """" "'") by discriminate. rewrite eqb_refl.
    destruct (double_through b m W 0 None ("""" :: r)) as (best & E). rewrite E. cbn [Nat.add].
    cbn. split; [intros _ (K & _); discriminate|]. intros _. f_equal. apply (firstn_lit Double).
Qed.

Theorem swallowed : forall b m r, written Single b m -> ends_with_backslash b -> In "'" r ->
  exists more rest, lex_string (literal Single b ++ r) = Some (literal Single b ++ more, rest) /\
    more <> [] /\ r = more ++ rest.
Proof.
  intros b m r W EB I. rewrite literal_app. cbn [lex_string mark]. rewrite eqb_refl.
  destruct (single_through b m W false 0 None ("'" :: r)) as (best & E). rewrite E. cbn [Nat.add].
  apply ends_bs_iff in EB. rewrite EB. cbn -[literal skipn firstn].
  destruct (single_some r false (S (length b)) (S (length b)) I) as (k & Ek & L); auto. rewrite Ek. cbn [option_map].
  exists (firstn (k - S (length b)) r), (skipn (k - S (length b)) r). refine (conj _ (conj _ _)).
  - unfold literal. rewrite firstn_app, skipn_app. rewrite firstn_all2, skipn_all2 by lia.
    replace (k - length b)%nat with (S (k - S (length b))) by lia. cbn [firstn skipn app mark].
    rewrite <- app_assoc. reflexivity.
  - destruct r; [contradiction|]. replace (k - S (length b))%nat with (S (k - S (length b) - 1)) by lia. discriminate.
  - symmetry. apply firstn_skipn.
Qed.

(** ** The value *)

Definition bs (k : nat) : list ascii := repeat "\" k.

Lemma rep_plain : forall c x b, x <> "\" -> replace c (x :: b) = x :: replace c b.
Proof. intros c x b H. destruct b as [|y b]; [reflexivity|]. cbn [replace]. rewrite (eqb_neq x "\") by auto. reflexivity. Qed.

Lemma rep_run : forall c k x b, x <> "\" -> c <> "\" ->
  replace c (bs k ++ x :: b) = bs (if Ascii.eqb x c then pred k else k) ++ x :: replace c b.
Proof.
  intros c k x b Hx Hc. induction k as [|k IH].
  - cbn [bs repeat app pred]. rewrite rep_plain by auto. destruct (Ascii.eqb x c); reflexivity.
  - destruct k as [|k].
    + cbn [bs repeat app]. change (replace c ("\" :: x :: b)) with
        (if Ascii.eqb "\" "\" && Ascii.eqb x c then c :: replace c b else "\" :: replace c (x :: b)).
      rewrite eqb_refl. cbn [andb]. destruct (Ascii.eqb x c) eqn:E.
      * apply Ascii.eqb_eq in E. subst. reflexivity.
      * rewrite rep_plain by auto. reflexivity.
    + change (replace c (bs (S (S k)) ++ x :: b)) with
        (if Ascii.eqb "\" "\" && Ascii.eqb "\" c then c :: replace c (bs k ++ x :: b) else "\" :: replace c (bs (S k) ++ x :: b)).
      rewrite (eqb_neq "\" c) by auto. rewrite andb_false_r, IH. destruct (Ascii.eqb x c); reflexivity.
Qed.

Lemma rep_run_end : forall c k, c <> "\" -> replace c (bs k) = bs k.
Proof.
  intros c k Hc. induction k as [|[|k] IH]; [reflexivity|reflexivity|].
  change (replace c (bs (S (S k)))) with
    (if Ascii.eqb "\" "\" && Ascii.eqb "\" c then c :: replace c (bs k) else "\" :: replace c (bs (S k))).
  rewrite (eqb_neq "\" c) by auto. rewrite andb_false_r, IH. reflexivity.
Qed.

Fixpoint half_up (k : nat) : nat := match k with 0 => 0 | 1 => 1 | S (S k) => S (half_up k) end.

Lemma rep_bs : forall x b, x <> "\" -> forall k, replace "\" (bs k ++ x :: b) = bs (half_up k) ++ x :: replace "\" b.
Proof.
  intros x b Hx. fix IH 1. intros [|[|k]].
  - cbn [bs repeat app half_up]. apply rep_plain. auto.
  - cbn [bs repeat app half_up]. change (replace "\" ("\" :: x :: b)) with
      (if Ascii.eqb "\" "\" && Ascii.eqb x "\" then "\" :: replace "\" b else "\" :: replace "\" (x :: b)).
    rewrite (eqb_neq x "\") by auto. rewrite andb_false_r, rep_plain by auto. reflexivity.
  - change (replace "\" (bs (S (S k)) ++ x :: b)) with ("\" :: replace "\" (bs k ++ x :: b)). rewrite IH. reflexivity.
Qed.

Lemma rep_bs_end : forall k, replace "\" (bs k) = bs (half_up k).
Proof.
  fix IH 1. intros [|[|k]]; [reflexivity|reflexivity|].
  change (replace "\" (bs (S (S k)))) with ("\" :: replace "\" (bs k)). rewrite IH. reflexivity.
Qed.

Definition unescape (s : list ascii) : list ascii := replace "\" (replace "'" (replace """" s)).

Lemma half_even : forall j, half_up (j + j) = j.
Proof. induction j as [|j IH]; auto. replace (S j + S j)%nat with (S (S (j + j))) by lia. cbn [half_up]. rewrite IH. auto. Qed.
Lemma half_odd : forall j, half_up (S (j + j)) = S j.
Proof. induction j as [|j IH]; auto. replace (S (S j + S j))%nat with (S (S (S (j + j)))) by lia. cbn [half_up] in *. rewrite IH. auto. Qed.

Lemma bs_app : forall j k, bs (j + k) = bs j ++ bs k. Proof. intros. apply repeat_app. Qed.
Lemma bs_more : forall j b, bs j ++ "\" :: b = bs (S j) ++ b.
Proof. induction j as [|j IH]; intros b; [reflexivity|]. cbn [bs repeat app] in *. f_equal. apply IH. Qed.

Lemma unescape_run : forall k x b, x <> "\" ->
  unescape (bs k ++ x :: b) = bs (half_up (if Ascii.eqb x """" || Ascii.eqb x "'" then pred k else k)) ++ x :: unescape b.
Proof.
  intros k x b Hx. unfold unescape. rewrite rep_run by (auto; discriminate). rewrite rep_run by (auto; discriminate).
  rewrite rep_bs by auto. do 2 f_equal. destruct (Ascii.eqb x """") eqn:A; destruct (Ascii.eqb x "'") eqn:B; try reflexivity.
  apply Ascii.eqb_eq in A, B. congruence.
Qed.

Lemma unescape_written : forall q b m, written q b m -> forall j, unescape (bs (j + j) ++ b) = bs j ++ m.
Proof.
  intros q. induction 1 as [|c b m H1 H2 W IH|b m W IH|b m W IH]; intros j.
  - rewrite !app_nil_r. unfold unescape. rewrite !rep_run_end by discriminate. rewrite rep_bs_end, half_even. reflexivity.
  - rewrite unescape_run by auto. specialize (IH 0%nat). cbn [Nat.add bs repeat app] in IH. rewrite IH. do 2 f_equal.
    destruct (_ || _); [|apply half_even]. destruct j as [|j]; [reflexivity|].
    replace (pred (S j + S j)) with (S (j + j)) by lia. apply half_odd.
  - rewrite bs_more. rewrite unescape_run by apply mark_bs. specialize (IH 0%nat). cbn [Nat.add bs repeat app] in IH. rewrite IH.
    replace (Ascii.eqb (mark q) """" || Ascii.eqb (mark q) "'") with true by (destruct q; reflexivity).
    cbn [pred]. rewrite half_even. reflexivity.
  - rewrite !bs_more. replace (S (S (j + j))) with (S j + S j)%nat by lia. rewrite IH. reflexivity.
Qed.

Lemma value_unescape : forall s, value_of s = unescape (strip s).
Proof.
  intros s. unfold value_of, preprocess_string. rewrite !list_ascii_of_string_of_list_ascii. reflexivity.
Qed.

Lemma is_quote_iff : forall c, is_quote c = true <-> quote_char c.
Proof. intros c. unfold is_quote, quote_char. rewrite orb_true_iff, !Ascii.eqb_eq. tauto. Qed.

Lemma lstrip_id : forall b, ~ starts_with_quote b -> lstrip b = b.
Proof.
  intros [|c b] H; [reflexivity|]. cbn. destruct (is_quote c) eqn:E; auto. exfalso. apply H. exists c, b. split; auto.
  apply is_quote_iff. auto.
Qed.

Lemma lstrip_app : forall a b, (exists c, In c a /\ is_quote c = false) -> lstrip (a ++ b) = lstrip a ++ b.
Proof.
  induction a as [|x a IH]; intros b (c & I & E); [contradiction|]. cbn. destruct (is_quote x) eqn:X; auto.
  apply IH. exists c. split; auto. destruct I; [congruence|auto].
Qed.

Lemma lstrip_all : forall a b, Forall (fun c => is_quote c = true) a -> lstrip (a ++ b) = lstrip b.
Proof. induction 1 as [|c a H F IH]; auto. cbn. rewrite H. auto. Qed.

Lemma starts_rev : forall b, starts_with_quote (rev b) <-> ends_with_quote b.
Proof.
  intros b. split.
  - intros (c & r & E & Q). exists c, (rev r). split; auto. rewrite <- (rev_involutive b), E. reflexivity.
  - intros (c & r & -> & Q). exists c, (rev r). split; auto. rewrite rev_app_distr. reflexivity.
Qed.

Lemma strip_literal : forall q b, strip (literal q b) = strip b.
Proof.
  intros q b. unfold strip, literal. assert (M : is_quote (mark q) = true) by (destruct q; reflexivity).
  cbn [lstrip]. rewrite M.
  destruct (forallb is_quote b) eqn:A.
  - assert (F : Forall (fun c => is_quote c = true) b) by (apply Forall_forall; intros c I; rewrite forallb_forall in A; auto).
    rewrite lstrip_all by auto. rewrite <- (app_nil_r b) at 1. rewrite (lstrip_all b []) by auto. cbn [lstrip]. rewrite M. reflexivity.
  - rewrite lstrip_app.
    + rewrite rev_app_distr. cbn [rev app lstrip]. rewrite M. reflexivity.
    + assert (existsb (fun c => negb (is_quote c)) b = true).
      { clear - A. induction b as [|c b IH]; [discriminate|]. cbn in *. destruct (is_quote c); auto. }
      apply existsb_exists in H. destruct H as (c & I & E). exists c. split; auto. destruct (is_quote c); auto; discriminate.
Qed.

Lemma strip_id : forall b, ~ starts_with_quote b -> ~ ends_with_quote b -> strip b = b.
Proof.
  intros b H1 H2. unfold strip. rewrite (lstrip_id b) by auto. rewrite lstrip_id by (rewrite starts_rev; auto). apply rev_involutive.
Qed.

(** The last character of what is left of a string is never a quote. *)
Lemma lstrip_no : forall b, ~ starts_with_quote (lstrip b).
Proof.
  induction b as [|c b IH]; cbn; [intros (c & r & E & _); discriminate|]. destruct (is_quote c) eqn:E; auto.
  intros (x & r & K & Q). inversion K; subst. apply is_quote_iff in Q. congruence.
Qed.

Lemma strip_no_end : forall b, ~ ends_with_quote (strip b).
Proof. intros b. unfold strip. rewrite <- starts_rev, rev_involutive. apply lstrip_no. Qed.

Lemma rep_last : forall c s, ~ ends_with_quote s -> ~ ends_with_quote (replace c s).
Proof.
  intros c. assert (G : forall n s, (length s <= n)%nat -> s <> [] ->
    exists l x y r, s = l ++ [x] /\ replace c s = r ++ [y] /\ (y = x)).
  { induction n as [|n IH]; intros s L N; [destruct s; [congruence|cbn in L; lia]|].
    destruct s as [|a [|b s]]; [congruence| |].
    - exists [], a, a, []. auto.
    - change (replace c (a :: b :: s)) with (if Ascii.eqb a "\" && Ascii.eqb b c then c :: replace c s else a :: replace c (b :: s)).
      destruct (Ascii.eqb a "\" && Ascii.eqb b c) eqn:E.
      + apply andb_true_iff in E. destruct E as [_ E]. apply Ascii.eqb_eq in E. subst b. destruct s as [|d s].
        * exists [a], c, c, []. auto.
        * destruct (IH (d :: s)) as (l & x & y & r & E1 & E2 & E3); [cbn in *; lia|discriminate|].
          exists (a :: c :: l), x, y, (c :: r). rewrite E1 in *. rewrite E2. auto.
      + destruct (IH (b :: s)) as (l & x & y & r & E1 & E2 & E3); [cbn in *; lia|discriminate|].
        exists (a :: l), x, y, (a :: r). rewrite E2. split; auto. cbn. rewrite <- E1. reflexivity. }
  intros s H (d & t & E & Q). destruct s as [|a s]; [destruct t; discriminate|].
  destruct (G _ (a :: s) (le_n _)) as (l & x & y & r & E1 & E2 & E3); [discriminate|].
  rewrite E2 in E. apply app_inj_tail in E. destruct E as [_ E]. apply H. exists x, l.
  split; [exact E1|]. rewrite <- E3, E. exact Q.
Qed.

Lemma ends_written : forall q b m, written q b m -> ends_with_quote b -> ends_with_quote m.
Proof.
  intros q. induction 1 as [|c b m H1 H2 W IH|b m W IH|b m W IH]; intros (d & r & E & Q).
  - destruct r; discriminate.
  - destruct r as [|a r]; cbn in E; inversion E; subst.
    + inversion W; subst. exists d, []. auto.
    + destruct IH as (x & t & -> & X); [exists d, r; auto|]. exists x, (a :: t). auto.
  - destruct r as [|a [|a' r]]; cbn in E; inversion E; subst.
    + inversion W; subst. exists (mark q), []. split; auto.
    + destruct IH as (x & t & -> & X); [exists d, r; auto|]. exists x, (mark q :: t). auto.
  - destruct r as [|a [|a' r]]; cbn in E; inversion E; subst.
    + destruct Q; discriminate.
    + destruct IH as (x & t & -> & X); [exists d, r; auto|]. exists x, ("\" :: t). auto.
Qed.

Lemma start_dropped : forall q b m, written q b m -> starts_with_quote b ->
  exists m', written q (lstrip b) m' /\ (length m' < length m)%nat.
Proof.
  intros q. induction 1 as [|c b m H1 H2 W IH|b m W IH|b m W IH]; intros (d & r & E & Q); inversion E; subst.
  - cbn. rewrite (proj2 (is_quote_iff d) Q). destruct r as [|e r'] eqn:Er.
    + inversion W; subst. exists []. split; [constructor|cbn; auto].
    + cbn [lstrip]. destruct (is_quote e) eqn:X.
      * destruct IH as (m' & W' & L). { exists e, r'. split; auto. apply is_quote_iff. auto. }
        cbn [lstrip] in W'. rewrite X in W'. exists m'. split; [exact W'|]. cbn. lia.
      * exists m. split; auto.
  - destruct Q; discriminate.
  - destruct Q; discriminate.
Qed.

Lemma ends_lstrip : forall b, ends_with_quote (lstrip b) -> ends_with_quote b.
Proof.
  induction b as [|c b IH]; intros H; auto. cbn in H. destruct (is_quote c); auto.
  destruct (IH H) as (d & r & -> & Q). exists d, (c :: r). auto.
Qed.

Theorem valued : forall q b m, written q b m ->
  (value_of (literal q b) = m <-> ~ starts_with_quote b /\ ~ ends_with_quote b).
Proof.
  intros q b m W. rewrite value_unescape, strip_literal.
  assert (DS : starts_with_quote b \/ ~ starts_with_quote b).
  { destruct b as [|c b]; [right; intros (c & r & E & _); discriminate|]. destruct (is_quote c) eqn:E.
    - left. exists c, b. split; auto. apply is_quote_iff. auto.
    - right. intros (d & r & K & Q). inversion K; subst. apply is_quote_iff in Q. congruence. }
  assert (DE : ends_with_quote b \/ ~ ends_with_quote b).
  { rewrite <- starts_rev. destruct (rev b) as [|c l]; [right; intros (c & r & E & _); discriminate|]. destruct (is_quote c) eqn:E.
    - left. exists c, l. split; auto. apply is_quote_iff. auto.
    - right. intros (d & r & K & Q). inversion K; subst. apply is_quote_iff in Q. congruence. }
  split.
  - intros E. assert (NE : ~ ends_with_quote b).
    { intros H. pose proof (ends_written q b m W H) as K. rewrite <- E in K. revert K. unfold unescape.
      do 3 apply rep_last. apply strip_no_end. }
    split; auto. intros H. destruct (start_dropped q b m W H) as (m' & W' & L).
    assert (St : strip b = lstrip b).
    { unfold strip. rewrite lstrip_id; [apply rev_involutive|]. rewrite starts_rev. intros K. apply NE. apply ends_lstrip. auto. }
    rewrite St in E. pose proof (unescape_written q _ _ W' 0) as U. cbn [Nat.add bs repeat app] in U. rewrite U in E. subst. lia.
  - intros [H1 H2]. rewrite strip_id by auto. apply (unescape_written q b m W 0).
Qed.

Theorem literal_read : forall q b m r, written q b m -> ~ starts_with_quote b -> ~ ends_with_quote b ->
  ~ (q = Single /\ ends_with_backslash b /\ In "'" r) ->
  exists t, lex_string (literal q b ++ r) = Some (t, r) /\ value_of t = m.
Proof.
  intros q b m r W H1 H2 H3. exists (literal q b). split; [apply (lexed q b m r W); auto|]. apply (valued q b m W). auto.
Qed.

(** ** Witnesses *)

Definition text (s : string) : list ascii := list_ascii_of_string s.

(** Builds the derivation for a concrete text. *)
Fixpoint read (fuel : nat) (q : quote) (b : list ascii) : option (list ascii) :=
  match fuel, b with
  | _, [] => Some []
  | S fuel, c :: b =>
      if Ascii.eqb c "\" then
        match b with
        | d :: b => if Ascii.eqb d (mark q) || Ascii.eqb d "\" then option_map (cons d) (read fuel q b) else None
        | [] => None
        end
      else if Ascii.eqb c (mark q) then None else option_map (cons c) (read fuel q b)
  | O, _ => None
  end.

Lemma read_written : forall fuel q b m, read fuel q b = Some m -> written q b m.
Proof.
  induction fuel as [|fuel IH]; intros q b m H; destruct b as [|c b]; cbn in H; try (inversion H; constructor); try discriminate.
  destruct (Ascii.eqb c "\") eqn:E.
  - apply Ascii.eqb_eq in E. subst c. destruct b as [|d b]; [discriminate|].
    destruct (Ascii.eqb d (mark q) || Ascii.eqb d "\") eqn:D; [|discriminate].
    destruct (read fuel q b) as [m'|] eqn:R; [|discriminate]. cbn in H. inversion H; subst.
    apply orb_true_iff in D. rewrite !Ascii.eqb_eq in D. destruct D; subst d; [apply written_quote|apply written_backslash]; auto.
  - apply Ascii.eqb_neq in E. destruct (Ascii.eqb c (mark q)) eqn:D; [discriminate|]. apply Ascii.eqb_neq in D.
    destruct (read fuel q b) as [m'|] eqn:R; [|discriminate]. cbn in H. inversion H; subst. constructor; auto.
Qed.

Lemma refute_literal : exists b m c m' d m'' r,
  (written Double b m /\ b = text "Example 4--'in either order'" /\ value_of (literal Double b) = text "Example 4--'in either order") /\
  (written Single c m' /\ m' = text "the owners'" /\ value_of (literal Single c) = text "the owners\") /\
  (written Single d m'' /\ m'' = text "C:\" /\ r = text "; title 'x';" /\
   lex_string (literal Single d ++ r) = Some (literal Single d ++ text "; title '", text "x';")).
Proof.
  exists (text "Example 4--'in either order'"), (text "Example 4--'in either order'"), (text "the owners\'"), (text "the owners'"),
    (text "C:\\"), (text "C:\"), (text "; title 'x';").
  refine (conj (conj _ (conj eq_refl eq_refl)) (conj (conj _ (conj eq_refl eq_refl)) (conj _ (conj eq_refl (conj eq_refl eq_refl)))));
    apply (read_written 100); reflexivity.
Qed.

Lemma literal_case : exists t, lex_string (literal Single (text "can escape \' and \\.") ++ text "; title 'x';") = Some (t, text "; title 'x';") /\
  value_of t = text "can escape ' and \.".
Proof.
  apply literal_read.
  - apply (read_written 100). reflexivity.
  - intros (c & r & E & [Q|Q]); rewrite Q in E; discriminate.
  - rewrite <- starts_rev. intros (c & r & E & [Q|Q]); rewrite Q in E; discriminate.
  - intros (_ & (r & E) & _). apply (f_equal (@rev ascii)) in E. rewrite rev_app_distr in E. discriminate.
Qed.
