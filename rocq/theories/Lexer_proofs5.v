(** * Proofs about the lexer: numbers, expressions, what is passed over *)
From Coq Require Import Ascii String List Bool Arith ZArith Lia.
From Verif Require Import Interp Lexer Literal Literal_spec Lexer_spec Lexer_proofs Lexer_proofs2 Lexer_proofs3 Lexer_proofs4.
Import ListNotations.
Local Open Scope list_scope.

(** ** Numbers *)
Lemma mantissa_begins : forall m, mantissa m -> (exists r, m = "."%char :: r) \/ exists c r, m = c :: r /\ is_digit c.
Proof.
  intros m H. destruct H as [a [N D]|a [N D]|a b [N D] _|b _].
  - right. destruct a; [congruence|]. inversion D; subst. eauto.
  - right. destruct a; [congruence|]. inversion D; subst. cbn. eauto.
  - right. destruct a; [congruence|]. inversion D; subst. cbn. eauto.
  - left. eauto.
Qed.

Lemma digit_not_start : forall c, is_digit c -> ~ starts_name c.
Proof. intros c D. rewrite starts_nat. unfold is_digit in D. lia. Qed.

Lemma sign_not_word : forall c, is_sign c -> ~ starts_name c /\ ~ is_digit c.
Proof.
  intros c H. unfold is_sign in H. cbn in H. rewrite starts_nat. unfold is_digit.
  destruct H as [<-|[<-|[]]]; cbn; lia.
Qed.

Lemma number_name : forall t, is_number t ->
  (is_name t <-> (exists r, t = "."%char :: r) /\ Forall (fun c => ~ is_sign c) t).
Proof.
  intros t N. pose proof (number_inner t N) as Hi. split.
  - intros (c & r & -> & Hc & Hr). split.
    + destruct N as (s & m & e & Hs & Hm & He & E). destruct Hs as [->|(x & Hx & ->)].
      * cbn in E. destruct (mantissa_begins m Hm) as [(y & ->)|(x & y & -> & Hx)].
        -- cbn in E. injection E as -> _. eauto.
        -- cbn in E. injection E as -> _. now apply digit_not_start in Hx.
      * cbn in E. injection E as -> _. now apply sign_not_word in Hx.
    + constructor.
      * intro S. now apply sign_not_word in S.
      * eapply Forall_impl; [|exact Hr]. intros a [Ha|Ha] S; apply sign_not_word in S; tauto.
  - intros [(r & ->) F]. exists "."%char, r. split; [reflexivity|]. split; [rewrite starts_nat; cbn; lia|].
    destruct N as (s & m & e & Hs & Hm & He & E).
    assert (G : Forall (fun c => is_digit c \/ c = "."%char \/ c = "e"%char \/ c = "E"%char \/ is_sign c) ("."%char :: r)).
    { rewrite E. apply Forall_app. split; [|apply Forall_app; split].
      - destruct Hs as [->|(x & Hx & ->)]; auto. constructor; [tauto|constructor].
      - assert (Dg : forall d, digits d -> Forall (fun c => is_digit c \/ c = "."%char \/ c = "e"%char \/ c = "E"%char \/ is_sign c) d).
        { intros d [_ D]. eapply Forall_impl; [|exact D]. auto. }
        destruct Hm; repeat (apply Forall_app; split || apply Forall_cons); auto.
      - assert (Dg : forall d, digits d -> Forall (fun c => is_digit c \/ c = "."%char \/ c = "e"%char \/ c = "E"%char \/ is_sign c) d).
        { intros d [_ D]. eapply Forall_impl; [|exact D]. auto. }
        destruct He as [|c s' d Hc Hs' Hd]; auto. constructor.
        + cbn in Hc. destruct Hc as [<-|[<-|[]]]; auto.
        + apply Forall_app. split; auto. destruct Hs' as [->|(x & Hx & ->)]; auto. constructor; [tauto|constructor]. }
    inversion G as [|? ? _ G']; inversion F as [|? ? _ F']; subst. clear - G' F'.
    rewrite Forall_forall in *. intros c I. specialize (G' c I). specialize (F' c I).
    destruct G' as [G'|[->|[->|[->|G']]]]; auto; try contradiction; left; rewrite starts_nat; cbn; lia.
Qed.

Lemma number_read : forall t s, is_number t -> ~ ((exists r, t = "."%char :: r) /\ Forall (fun c => ~ is_sign c) t) ->
  separated t s ->
  exists k, (k = INTEGER /\ digits t \/ k = FLOAT_VAL /\ ~ digits t) /\
    tokens (fst (read (t ++ s))) = (Of k, t) :: tokens (fst (read s)).
Proof.
  intros t s N Hn Sep. rewrite <- number_name in Hn by assumption.
  destruct (forallb digit t) eqn:D.
  - assert (Hd : digits t).
    { split; [now apply number_nonempty|]. apply Forall_forall. intros c I. apply digit_iff.
      rewrite forallb_forall in D. auto. }
    exists INTEGER. split; [auto|]. unfold read. fold (run Default [] (t ++ s)). fold (run Default [] s).
    rewrite (run_word (Of INTEGER) t s []); auto; [|now constructor]. now destruct (run Default [] s).
  - assert (Hd : ~ digits t).
    { intros [_ F]. assert (forallb digit t = true); [|congruence].
      apply forallb_forall. intros c I. apply digit_iff. rewrite Forall_forall in F. auto. }
    exists FLOAT_VAL. split; [auto|]. unfold read. fold (run Default [] (t ++ s)). fold (run Default [] s).
    rewrite (run_word (Of FLOAT_VAL) t s []); auto; [|now constructor]. now destruct (run Default [] s).
Qed.

Lemma number_not_reserved : forall t, is_number t -> ~ reserved true t.
Proof.
  intros t N (k & s & V & ->).
  assert (H : In (k, s) (literals_1 ++ literals_2)).
  { destruct k as [k| | | | | | | | | | | | | | | | |]; try (destruct k); try discriminate; injection V as <-;
      cbv [literals_1 literals_2 app]; repeat (left; reflexivity) || right; try (left; reflexivity). }
  now apply (literal_kinds _ H).
Qed.

Lemma number_name_read : forall t s, is_number t -> (exists r, t = "."%char :: r) -> Forall (fun c => ~ is_sign c) t ->
  separated t s -> tokens (fst (read (t ++ s))) = (Of ID, t) :: tokens (fst (read s)).
Proof.
  intros t s N B F Sep. assert (Hn : is_name t) by (apply number_name; auto).
  unfold read. fold (run Default [] (t ++ s)). fold (run Default [] s).
  rewrite (run_word (Of ID) t s []); auto; [now destruct (run Default [] s)|].
  constructor; auto. now apply number_not_reserved.
Qed.

Lemma integer_value : forall s, digits (text s) -> int_of s = Z.of_nat (place_value (text s)).
Proof.
  intros s [_ D]. unfold int_of.
  set (f := fun n c => (10 * n + (Z.of_nat (nat_of_ascii c) - 48))%Z).
  assert (G : forall t n, Forall is_digit t ->
    fold_left f t n = (n * 10 ^ Z.of_nat (length t) + Z.of_nat (place_value t))%Z).
  { induction t as [|c t IH]; intros n F.
    - cbn. lia.
    - inversion F; subst. cbn [fold_left]. rewrite IH by assumption. cbn [place_value length].
      unfold f at 1. rewrite !Nat2Z.inj_add, Nat2Z.inj_mul, Nat2Z.inj_pow.
      unfold digit_value. rewrite Nat2Z.inj_sub by (unfold is_digit in *; lia).
      rewrite Nat2Z.inj_succ, Z.pow_succ_r by lia. ring_simplify. change (Z.of_nat 48) with 48%Z.
      change (Z.of_nat 10) with 10%Z. ring. }
  rewrite G by assumption. lia.
Qed.

(** ** What is passed over *)
Lemma run_lossless : forall n m ms s, length s <= n -> (snd (run m ms s) = AtEnd -> concat (map taken (fst (run m ms s))) = s).
Proof.
  induction n as [|n IH]; intros m ms s Hn.
  - destruct s; [reflexivity|cbn in Hn; lia].
  - destruct s as [|c s]; [reflexivity|]. unfold run. cbn [length lex].
    pose proof (scan_some m (c :: s)) as Hs.
    destruct (scan (rules m) (c :: s) 0 None) as [[[k j]|] j'].
    + destruct (Hs k j eq_refl) as (a & b & E & Ha & Ne & W).
      assert (length b <= length s).
      { apply (f_equal (@length ascii)) in E. cbn in E. rewrite app_length in E. destruct a; [congruence|]. cbn in E. lia. }
      rewrite E, <- Ha.
      assert (E1 : skipn (length a) (a ++ b) = b) by (rewrite skipn_app, skipn_all, Nat.sub_diag; reflexivity).
      assert (E2 : firstn (length a) (a ++ b) = a)
        by (rewrite firstn_app, firstn_all, Nat.sub_diag; cbn [firstn]; apply app_nil_r).
      rewrite E1, E2. destruct (switch k m ms) as [[m' ms']|]; [|discriminate].
      rewrite (lex_fuel (length b)) by auto. fold (run m' ms' b).
      pose proof (IH m' ms' b) as IHb. destruct (run m' ms' b) as [l e]. cbn [fst snd] in *. intros ->.
      cbn [map concat]. rewrite IHb; auto; [|cbn in Hn; lia].
      destruct k as [k| | | | | | | | | | | | | | | | |]; try reflexivity; destruct k; reflexivity.
    + set (r := skipn (S j') (c :: s)).
      assert (L : length r <= length s) by (unfold r; rewrite skipn_length; cbn; lia).
      rewrite (lex_fuel (length r)) by auto. fold (run m ms r).
      pose proof (IH m ms r) as IHr. destruct (run m ms r) as [l e]. cbn [fst snd] in *. intros ->.
      cbn [map concat taken]. rewrite IHr; auto; [|cbn in Hn; lia]. unfold r. apply firstn_skipn.
Qed.

(** The first mode is at the bottom of the stack. *)
Fixpoint proper (m : lmode) (ms : list lmode) : Prop :=
  match ms with [] => m = Default | m' :: ms => proper m' ms end.

Lemma default_winner : forall k a, winner default_rules a = Some k ->
  k <> Of PYTHON_END /\ k <> Of NESTEDRPAREN.
Proof.
  intros k a W.
  assert (I : In k (map fst default_rules)).
  { unfold winner in W. destruct (find _ default_rules) as [r|] eqn:F; [|discriminate].
    injection W as <-. apply find_some in F as [F _]. now apply in_map. }
  assert (H : forallb (fun k => match k with Of PYTHON_END | Of NESTEDRPAREN => false | _ => true end) (map fst default_rules) = true)
    by (vm_compute; reflexivity).
  rewrite forallb_forall in H. specialize (H k I). split; intros ->; discriminate.
Qed.

Lemma switch_proper : forall k m ms a, winner (rules m) a = Some k -> proper m ms ->
  exists m' ms', switch k m ms = Some (m', ms') /\ proper m' ms'.
Proof.
  intros k m ms a W P.
  assert (H : (exists m', switch k m ms = Some (m', m :: ms)) \/ switch k m ms = Some (m, ms) \/
              ((k = Of PYTHON_END \/ k = Of NESTEDRPAREN) /\
               switch k m ms = match ms with [] => None | m :: ms => Some (m, ms) end)).
  { destruct k as [k| | | | | | | | | | | | | | | | |]; try (right; left; reflexivity).
    destruct k; first [ right; left; reflexivity | left; eexists; reflexivity
                      | right; right; split; [auto|reflexivity] ]. }
  destruct H as [(m' & ->)|[->|[K ->]]].
  - eexists _, _. split; [reflexivity|exact P].
  - eexists _, _. split; [reflexivity|exact P].
  - destruct m.
    + apply default_winner in W. tauto.
    + destruct ms as [|m' ms]; [discriminate|]. eexists _, _. split; [reflexivity|exact P].
    + destruct ms as [|m' ms]; [discriminate|]. eexists _, _. split; [reflexivity|exact P].
Qed.

Lemma run_ends : forall n m ms s, length s <= n -> proper m ms -> snd (run m ms s) = AtEnd.
Proof.
  induction n as [|n IH]; intros m ms s Hn P.
  - destruct s; [reflexivity|cbn in Hn; lia].
  - destruct s as [|c s]; [reflexivity|]. unfold run. cbn [length lex].
    pose proof (scan_some m (c :: s)) as Hs.
    destruct (scan (rules m) (c :: s) 0 None) as [[[k j]|] j'].
    + destruct (Hs k j eq_refl) as (a & b & E & Ha & Ne & W).
      assert (length b <= length s).
      { apply (f_equal (@length ascii)) in E. cbn in E. rewrite app_length in E. destruct a; [congruence|]. cbn in E. lia. }
      rewrite E, <- Ha.
      assert (E1 : skipn (length a) (a ++ b) = b) by (rewrite skipn_app, skipn_all, Nat.sub_diag; reflexivity).
      rewrite E1. destruct (switch_proper k m ms a W P) as (m' & ms' & -> & P').
      rewrite (lex_fuel (length b)) by auto. fold (run m' ms' b).
      assert (IHb : snd (run m' ms' b) = AtEnd) by (apply IH; [cbn in Hn; lia|exact P']).
      destruct (run m' ms' b). exact IHb.
    + set (r := skipn (S j') (c :: s)).
      assert (L : length r <= length s) by (unfold r; rewrite skipn_length; cbn; lia).
      rewrite (lex_fuel (length r)) by auto. fold (run m ms r).
      assert (IHr : snd (run m ms r) = AtEnd) by (apply IH; [cbn in Hn; lia|exact P]).
      destruct (run m ms r). exact IHr.
Qed.

(** Only WS is skipped, and WS matches only white space and comments. *)
Lemma winner_lang : forall rs a k, winner rs a = Some k -> exists r, In (k, r) rs /\ lang r a.
Proof.
  intros rs a k W. unfold winner in W. destruct (find _ rs) as [[k' r]|] eqn:F; [|discriminate].
  injection W as <-. apply find_some in F as [F A]. apply accepts_lang in A. exists r. auto.
Qed.

Lemma ws_winner : forall m a, winner (rules m) a = Some (Of WS) -> is_space a.
Proof.
  intros m a W. destruct m.
  - change (rules Default) with default_rules in W. destruct (accepts ws_re a) eqn:A.
    + apply accepts_lang in A. now apply lang_ws.
    + exfalso. change default_rules with ((Of WS, ws_re) :: tl default_rules) in W.
      rewrite winner_cons, A in W. apply winner_lang in W as (r & I & _).
      apply (in_map fst) in I. cbn [fst] in I.
      assert (H : forallb (fun k => match k with Of WS => false | _ => true end) (map fst (tl default_rules)) = true)
        by (vm_compute; reflexivity).
      rewrite forallb_forall in H. now specialize (H _ I).
  - apply winner_lang in W as (r & I & _). unfold rules in I. cbn [In] in I. intuition discriminate.
  - apply winner_lang in W as (r & I & _). unfold rules in I. cbn [In] in I. intuition discriminate.
Qed.

Lemma run_skips : forall n m ms s, length s <= n -> skips_only_spaces (fst (run m ms s)).
Proof.
  induction n as [|n IH]; intros m ms s Hn.
  - destruct s; [constructor|cbn in Hn; lia].
  - destruct s as [|c s]; [constructor|]. unfold run. cbn [length lex].
    pose proof (scan_some m (c :: s)) as Hs.
    destruct (scan (rules m) (c :: s) 0 None) as [[[k j]|] j'].
    + destruct (Hs k j eq_refl) as (a & b & E & Ha & Ne & W).
      assert (length b <= length s).
      { apply (f_equal (@length ascii)) in E. cbn in E. rewrite app_length in E. destruct a; [congruence|]. cbn in E. lia. }
      rewrite E, <- Ha.
      assert (E1 : skipn (length a) (a ++ b) = b) by (rewrite skipn_app, skipn_all, Nat.sub_diag; reflexivity).
      assert (E2 : firstn (length a) (a ++ b) = a)
        by (rewrite firstn_app, firstn_all, Nat.sub_diag; cbn [firstn]; apply app_nil_r).
      rewrite E1, E2. destruct (switch k m ms) as [[m' ms']|]; [|constructor].
      rewrite (lex_fuel (length b)) by auto. fold (run m' ms' b).
      assert (IHb : skips_only_spaces (fst (run m' ms' b))) by (apply IH; cbn in Hn; lia).
      destruct (run m' ms' b) as [l e]. cbn [fst] in *. constructor; auto.
      destruct k as [k| | | | | | | | | | | | | | | | |]; try exact I; destruct k; try exact I.
      eapply ws_winner; eauto.
    + set (r := skipn (S j') (c :: s)).
      assert (L : length r <= length s) by (unfold r; rewrite skipn_length; cbn; lia).
      rewrite (lex_fuel (length r)) by auto. fold (run m ms r).
      assert (IHr : skips_only_spaces (fst (run m ms r))) by (apply IH; cbn in Hn; lia).
      destruct (run m ms r). cbn [fst] in *. constructor; auto.
Qed.

Lemma read_lossless : forall s, snd (read s) = AtEnd /\ concat (map taken (fst (read s))) = s /\
  skips_only_spaces (fst (read s)).
Proof.
  intro s. unfold read. fold (run Default [] s).
  assert (E : snd (run Default [] s) = AtEnd) by (apply (run_ends (length s)); [auto|reflexivity]).
  refine (conj E (conj _ _)).
  - apply (run_lossless (length s)); auto.
  - apply (run_skips (length s)). auto.
Qed.

(** Characters which begin nothing. *)
Definition blank_b (c : ascii) : bool := existsb (Ascii.eqb c) [" "%char; "009"%char; "013"%char; "010"%char].
Definition meaningless_b (c : ascii) : bool :=
  negb (inner c) && negb (blank_b c) && negb (Ascii.eqb c "'") && negb (Ascii.eqb c """") &&
  negb (existsb (Ascii.eqb c) (text "#${}[](),;:*")).

Lemma existsb_in : forall c l, existsb (Ascii.eqb c) l = true <-> In c l.
Proof.
  intros c l. rewrite existsb_exists. split.
  - intros (x & I & E). apply Ascii.eqb_eq in E. now subst.
  - intro I. exists c. split; [exact I|apply Ascii.eqb_refl].
Qed.

Lemma meaningless_iff : forall c, meaningless c -> meaningless_b c = true.
Proof.
  intros c (H1 & H2 & H3 & H4 & H5). unfold meaningless_b, blank_b.
  rewrite !andb_true_iff, !negb_true_iff, !Ascii.eqb_neq. repeat split.
  - destruct (inner c) eqn:E; auto. apply inner_iff in E. tauto.
  - destruct (existsb _ _) eqn:E; auto. apply existsb_in in E. contradiction.
  - intros ->. apply H4. now left.
  - intros ->. apply H4. now right.
  - destruct (existsb _ _) eqn:E; auto. apply existsb_in in E. contradiction.
Qed.

Lemma all_ascii : forall P : ascii -> bool, forallb (fun n => P (ascii_of_nat n)) (List.seq 0 256) = true -> forall c, P c = true.
Proof.
  intros P H c. rewrite forallb_forall in H. rewrite <- (ascii_nat_embedding c). apply H.
  apply in_seq. pose proof (nat_ascii_bounded c). lia.
Qed.

Lemma meaningless_dead : forall c, meaningless c -> forall r, In r default_rules -> dead (after c (snd r)) = true.
Proof.
  intros c M r I. apply meaningless_iff in M.
  assert (H : implb (meaningless_b c) (forallb (fun r => dead (after c (snd r))) default_rules) = true).
  { revert c M. intros c _. revert c. apply all_ascii. vm_compute. reflexivity. }
  rewrite M in H. cbn [implb] in H. rewrite forallb_forall in H. auto.
Qed.

Lemma scan_meaningless : forall c s, meaningless c -> scan default_rules (c :: s) 0 None = (None, 0).
Proof.
  intros c s M. unfold scan.
  assert (F : find (fun r : tkind * re => nullable (snd r)) default_rules = None) by (vm_compute; reflexivity).
  rewrite F.
  assert (E : filter (fun r : tkind * re => negb (dead (snd r))) (map (fun r => (fst r, after c (snd r))) default_rules) = []).
  { pose proof (meaningless_dead c M) as H. revert H. generalize default_rules as rs.
    induction rs as [|r rs IH]; intro H; [reflexivity|]. cbn [map filter fst snd].
    rewrite (H r) by now left. cbn [negb]. apply IH. intros r' I. apply H. now right. }
  rewrite E. reflexivity.
Qed.

Lemma read_meaningless : forall c s, meaningless c ->
  read (c :: s) = let (l, e) := read s in (Dropped [c] :: l, e).
Proof.
  intros c s M. unfold read. cbn [length lex]. change (rules Default) with default_rules.
  rewrite scan_meaningless by assumption. reflexivity.
Qed.

(** A quote that is not closed. *)
Lemma scan_cons : forall rs c s n best, exists best',
  scan rs (c :: s) n best =
  match filter (fun r => negb (dead (snd r))) (map (fun r => (fst r, after c (snd r))) rs) with
  | [] => (best', n)
  | rs' => scan rs' s (S n) best'
  end.
Proof. intros. eexists. reflexivity. Qed.

Lemma scan_grows : forall q rs n best, n <= snd (scan rs q n best).
Proof.
  induction q as [|c q IH]; intros rs n best; [cbn; auto|].
  destruct (scan_cons rs c q n best) as [best' ->].
  destruct (filter _ _); [cbn; auto|]. eapply Nat.le_trans; [|apply IH]. lia.
Qed.

Lemma scan_follow : forall p q rs n best k r x, In (k, r) rs -> lang r (p ++ x) ->
  n + length p <= snd (scan rs (p ++ q) n best).
Proof.
  induction p as [|c p IH]; intros q rs n best k r x I L.
  - cbn [length app]. rewrite Nat.add_0_r. apply scan_grows.
  - cbn [app]. destruct (scan_cons rs c (p ++ q) n best) as [best' ->].
    set (rs' := filter _ _).
    assert (I' : In (k, after c r) rs').
    { unfold rs'. apply filter_In. split.
      - change (k, after c r) with ((fun r => (fst r, after c (snd r))) (k, r)). now apply in_map.
      - cbn. destruct (dead (after c r)) eqn:D; auto. exfalso.
        apply (dead_lang _ (p ++ x) D). apply after_lang. exact L. }
    assert (G : S n + length p <= snd (scan rs' (p ++ q) (S n) best')).
    { apply (IH q rs' (S n) best' k (after c r) x I'). apply after_lang. exact L. }
    destruct rs' as [|r0 rs0]; [contradiction|]. cbn [length]. lia.
Qed.

Lemma unclosed : forall q b ms, Forall (fun c => c <> mark q /\ (q = Double -> c <> "\"%char)) b ->
  run Default ms (mark q :: b) = ([Dropped (mark q :: b)], AtEnd).
Proof.
  intros q b ms F.
  assert (Hb : body q b).
  { induction F as [|c b [H1 H2] F IH]; [constructor|]. apply body_plain; auto.
    destruct q; cbn in *; rewrite ?andb_true_iff, ?negb_true_iff, ?Ascii.eqb_neq; auto. }
  assert (L : lang (quoted_re q) ((mark q :: b) ++ [mark q])) by (apply lang_quoted; exists b; auto).
  assert (I : In (Of STRING, Or single_re double_re) default_rules).
  { unfold default_rules. apply in_or_app. right. apply in_or_app. right. apply in_or_app. left. now left. }
  assert (L' : lang (Or single_re double_re) ((mark q :: b) ++ [mark q])).
  { destruct q; [now apply lang_left|now apply lang_right]. }
  pose proof (scan_follow (mark q :: b) [] default_rules 0 None _ _ _ I L') as Sf. rewrite app_nil_r in Sf.
  assert (N : fst (scan default_rules (mark q :: b) 0 None) = None).
  { destruct (scan_best (mark q :: b) default_rules 0 None) as [(a & x & k & E & W & _)|[_ E]]; [|exact E].
    exfalso. destruct a as [|c a]; [change default_rules with (rules Default) in W; rewrite winner_empty in W; discriminate|].
    injection E as <- E. pose proof (quote_not_path _ (mark_quote q)) as [Q1 Q2].
    all: assert (Z : winner default_rules (mark q :: a) = None); [|congruence].
    all: apply default_none;
      [ intros [(y & B & Ey)|(y & Ey & _)]; injection Ey as Ey _;
          [subst y; apply blank_facts in B; destruct B as (_ & _ & B & _); apply B, mark_quote|destruct q; discriminate]
      | intros l Il El; apply (literal_not q a [] l Il); rewrite app_nil_r; exact El
      | intros q' b' Eq _; unfold literal in Eq; injection Eq as Eq1 Eq2; apply mark_inj in Eq1; subst q';
        assert (J : In (mark q) b) by (rewrite E, Eq2; apply in_or_app; left; apply in_or_app; right; now left);
        rewrite Forall_forall in F; destruct (F _ J) as [F' _]; now apply F'
      | intro H'; apply first_number in H'; tauto
      | intro H'; apply first_path in H'; tauto ]. }
  unfold run. cbn [length lex]. change (rules Default) with default_rules.
  destruct (scan default_rules (mark q :: b) 0 None) as [o j]. cbn [fst snd] in *. subst o.
  cbn [length] in Sf. rewrite skipn_all2 by (cbn; lia). rewrite firstn_all2 by (cbn; lia).
  destruct (length b); reflexivity.
Qed.
