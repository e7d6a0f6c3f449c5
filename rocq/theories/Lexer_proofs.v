(** * Proofs about the lexer: languages of the rules *)
From Coq Require Import Ascii String List Bool Arith Lia.
From Verif Require Import Interp Lexer Literal Literal_spec Lexer_spec.
Import ListNotations.
Local Open Scope list_scope.

(** ** The language of a right-hand side *)
Inductive lang : re -> list ascii -> Prop :=
| lang_nil : lang Nil []
| lang_char : forall p c, p c = true -> lang (Char p) [c]
| lang_then : forall a b s t, lang a s -> lang b t -> lang (Then a b) (s ++ t)
| lang_left : forall a b s, lang a s -> lang (Or a b) s
| lang_right : forall a b s, lang b s -> lang (Or a b) s
| lang_none : forall a, lang (Many a) []
| lang_more : forall a s t, lang a s -> lang (Many a) t -> lang (Many a) (s ++ t).

Lemma nullable_lang : forall r, nullable r = true <-> lang r [].
Proof.
  induction r; cbn; split; intro H; try discriminate; try (now constructor); try (inversion H; fail).
  - apply andb_prop in H as [H1 H2]. change (@nil ascii) with ((@nil ascii) ++ []).
    constructor; [now apply IHr1|now apply IHr2].
  - inversion H; subst. apply app_eq_nil in H2 as [-> ->].
    apply andb_true_intro. split; [now apply IHr1|now apply IHr2].
  - apply orb_prop in H as [H|H]; [apply lang_left; now apply IHr1|apply lang_right; now apply IHr2].
  - inversion H; subst; apply orb_true_intro; [left; now apply IHr1|right; now apply IHr2].
Qed.

Lemma lang_then_inv : forall a b s, lang (Then a b) s -> exists x y, s = x ++ y /\ lang a x /\ lang b y.
Proof. intros a b s H. inversion H; subst. eauto. Qed.
Lemma lang_or_inv : forall a b s, lang (Or a b) s -> lang a s \/ lang b s.
Proof. intros a b s H. inversion H; subst; auto. Qed.
Lemma lang_char_inv : forall p s, lang (Char p) s -> exists c, s = [c] /\ p c = true.
Proof. intros p s H. inversion H; subst. eauto. Qed.
Lemma lang_nil_inv : forall s, lang Nil s -> s = [].
Proof. intros s H. inversion H. auto. Qed.
Lemma lang_this : forall c s, lang (this c) s <-> s = [c].
Proof.
  intros c s; split; intro H.
  - apply lang_char_inv in H as (d & -> & E). apply Ascii.eqb_eq in E. now subst.
  - subst. constructor. apply Ascii.eqb_refl.
Qed.

Lemma lang_many_cons : forall a c s, lang (Many a) (c :: s) ->
  exists x y, s = x ++ y /\ lang a (c :: x) /\ lang (Many a) y.
Proof.
  intros a c s H. remember (Many a) as r eqn:Er. remember (c :: s) as w eqn:Ew.
  revert a c s Er Ew. induction H; intros; try discriminate.
  injection Er as ->. destruct s as [|d s].
  - cbn in Ew. subst. apply (IHlang2 a0 c s0); auto.
  - cbn in Ew. injection Ew as -> <-. exists s, t. auto.
Qed.

Lemma after_lang : forall r c s, lang (after c r) s <-> lang r (c :: s).
Proof.
  induction r; intros c s; cbn; split; intro H; try (inversion H; fail).
  - destruct (p c) eqn:E; inversion H; subst. now constructor.
  - apply lang_char_inv in H as (d & [= <- ->] & E). rewrite E. constructor.
  - destruct (nullable r1) eqn:E.
    + apply lang_or_inv in H as [H|H].
      * apply lang_then_inv in H as (x & y & -> & H1 & H2). apply IHr1 in H1.
        change (c :: x ++ y) with ((c :: x) ++ y). now constructor.
      * apply IHr2 in H. change (c :: s) with ([] ++ c :: s). constructor; auto. now apply nullable_lang.
    + apply lang_then_inv in H as (x & y & -> & H1 & H2). apply IHr1 in H1.
      change (c :: x ++ y) with ((c :: x) ++ y). now constructor.
  - apply lang_then_inv in H as (x & y & E & H1 & H2). destruct x as [|d x].
    + cbn in E. subst y. apply nullable_lang in H1. rewrite H1. apply lang_right. now apply IHr2.
    + cbn in E. injection E as <- ->. apply IHr1 in H1.
      assert (L : lang (Then (after c r1) r2) (x ++ y)) by now constructor.
      destruct (nullable r1); [now apply lang_left|auto].
  - apply lang_or_inv in H as [H|H]; [apply lang_left; now apply IHr1|apply lang_right; now apply IHr2].
  - apply lang_or_inv in H as [H|H]; [apply lang_left; now apply IHr1|apply lang_right; now apply IHr2].
  - apply lang_then_inv in H as (x & y & -> & H1 & H2). apply IHr in H1.
    change (c :: x ++ y) with ((c :: x) ++ y). now constructor.
  - apply lang_many_cons in H as (x & y & -> & H1 & H2). constructor; auto. now apply IHr.
Qed.

Lemma dead_lang : forall r s, dead r = true -> ~ lang r s.
Proof.
  induction r; intros s E H; cbn in E; try discriminate.
  - inversion H.
  - apply lang_then_inv in H as (x & y & -> & H1 & H2).
    apply orb_prop in E as [E|E]; [now apply (IHr1 x)|now apply (IHr2 y)].
  - apply andb_prop in E as [E1 E2]. apply lang_or_inv in H as [H|H]; [now apply (IHr1 s)|now apply (IHr2 s)].
Qed.

(** ** The longest match *)
Definition accepts (r : re) (t : list ascii) : bool := nullable (fold_left (fun r c => after c r) t r).

Lemma accepts_lang : forall t r, accepts r t = true <-> lang r t.
Proof.
  induction t as [|c t IH]; intro r.
  - apply nullable_lang.
  - change (accepts r (c :: t)) with (accepts (after c r) t). rewrite IH. apply after_lang.
Qed.

Definition winner (rs : list (tkind * re)) (t : list ascii) : option tkind :=
  option_map fst (find (fun r => accepts (snd r) t) rs).

Lemma winner_none : forall rs t, winner rs t = None <-> Forall (fun r => ~ lang (snd r) t) rs.
Proof.
  intros rs t. unfold winner. induction rs as [|r rs IH]; cbn.
  - split; auto.
  - destruct (accepts (snd r) t) eqn:E; cbn.
    + split; [discriminate|]. intro H. inversion H; subst. apply accepts_lang in E. contradiction.
    + rewrite IH. split; intro H.
      * constructor; auto. intro L. apply accepts_lang in L. congruence.
      * now inversion H.
Qed.

Lemma winner_app : forall a b t,
  winner (a ++ b) t = match winner a t with Some k => Some k | None => winner b t end.
Proof.
  intros a b t. unfold winner. induction a as [|r a IH]; cbn; auto.
  destruct (accepts (snd r) t); auto.
Qed.

Lemma winner_skip : forall a b t, Forall (fun r => ~ lang (snd r) t) a -> winner (a ++ b) t = winner b t.
Proof. intros a b t H. rewrite winner_app. apply winner_none in H. now rewrite H. Qed.

Lemma winner_here : forall k r b t, lang r t -> winner ((k, r) :: b) t = Some k.
Proof. intros k r b t H. unfold winner. cbn. apply accepts_lang in H. now rewrite H. Qed.

Lemma winner_cons : forall k r rs t, winner ((k, r) :: rs) t = if accepts r t then Some k else winner rs t.
Proof. intros k r rs t. unfold winner. cbn [find snd]. destruct (accepts r t); reflexivity. Qed.

Lemma winner_after : forall rs c t,
  winner (filter (fun r => negb (dead (snd r))) (map (fun r => (fst r, after c (snd r))) rs)) t =
  winner rs (c :: t).
Proof.
  intros rs c t. induction rs as [|[k r] rs IH]; [reflexivity|].
  rewrite winner_cons. cbn [map filter fst snd].
  change (accepts r (c :: t)) with (accepts (after c r) t).
  destruct (dead (after c r)) eqn:D; cbn [negb].
  - destruct (accepts (after c r) t) eqn:A; auto.
    apply accepts_lang in A. now apply dead_lang in A.
  - rewrite winner_cons. destruct (accepts (after c r) t); auto.
Qed.

Lemma scan_best : forall s rs n best,
  (exists a b k, s = a ++ b /\ winner rs a = Some k /\
     (forall p q, b = p ++ q -> p <> [] -> winner rs (a ++ p) = None) /\
     fst (scan rs s n best) = Some (k, n + length a)) \/
  ((forall p q, s = p ++ q -> winner rs p = None) /\ fst (scan rs s n best) = best).
Proof.
  induction s as [|c s IH]; intros rs n best.
  - destruct (winner rs []) as [k|] eqn:W.
    + left. exists [], [], k. repeat split; auto.
      * intros p q E Hp. symmetry in E. apply app_eq_nil in E as [-> _]. congruence.
      * unfold winner in W. unfold scan.
        change (find (fun r => accepts (snd r) []) rs) with (find (fun r : tkind * re => nullable (snd r)) rs) in W.
        destruct (find _ rs) as [[k' r]|]; cbn in W; [|discriminate]. injection W as ->.
        cbn. now rewrite Nat.add_0_r.
    + right. split.
      * intros p q E. symmetry in E. apply app_eq_nil in E as [-> _]. auto.
      * unfold winner in W. unfold scan.
        change (find (fun r => accepts (snd r) []) rs) with (find (fun r : tkind * re => nullable (snd r)) rs) in W.
        destruct (find _ rs) as [[k' r]|]; cbn in W; [discriminate|reflexivity].
  - cbn [scan].
    set (rs' := filter _ _).
    set (best' := match find _ rs with Some _ => _ | None => _ end).
    assert (W' : forall t, winner rs' t = winner rs (c :: t)) by (intro t; apply winner_after).
    assert (Hb : (exists k, winner rs [] = Some k /\ best' = Some (k, n)) \/ (winner rs [] = None /\ best' = best)).
    { unfold best', winner.
      change (find (fun r => accepts (snd r) []) rs) with (find (fun r : tkind * re => nullable (snd r)) rs).
      destruct (find _ rs) as [[k r]|]; [left; exists k|right]; auto. }
    assert (Hnone : (forall p q, s = p ++ q -> winner rs (c :: p) = None) ->
      fst (best', n) = best' ->
      (exists a b k, c :: s = a ++ b /\ winner rs a = Some k /\
         (forall p q, b = p ++ q -> p <> [] -> winner rs (a ++ p) = None) /\ best' = Some (k, n + length a)) \/
      ((forall p q, c :: s = p ++ q -> winner rs p = None) /\ best' = best)).
    { intros Hn _. destruct Hb as [(k & Wk & ->)|[Wn ->]].
      - left. exists [], (c :: s), k. repeat split; auto.
        + intros p q E Hp. destruct p as [|d p]; [congruence|]. cbn in E. injection E as <- E. cbn. eauto.
        + cbn. now rewrite Nat.add_0_r.
      - right. split; auto. intros p q E. destruct p as [|d p]; auto. cbn in E. injection E as <- E. eauto. }
    destruct rs' as [|r0 rs0] eqn:Er.
    + cbn [fst]. apply Hnone; auto. intros p q _. rewrite <- W'. reflexivity.
    + rewrite <- Er in *. destruct (IH rs' (S n) best') as [(a & b & k & -> & Wa & Hl & ->)|[Hn ->]].
      * left. exists (c :: a), b, k. repeat split; auto.
        -- now rewrite <- W'.
        -- intros p q E Hp. cbn. rewrite <- W'. eauto.
        -- cbn. now rewrite Nat.add_succ_r.
      * apply Hnone; auto. intros p q E. rewrite <- W'. eauto.
Qed.

Lemma scan_word : forall rs t s k, winner rs t = Some k -> t <> [] ->
  (forall p q, s = p ++ q -> p <> [] -> winner rs (t ++ p) = None) ->
  fst (scan rs (t ++ s) 0 None) = Some (k, length t).
Proof.
  intros rs t s k W Ht Hl.
  destruct (scan_best (t ++ s) rs 0 None) as [(a & b & k' & E & Wa & Hl' & ->)|[Hn _]].
  - assert (a = t /\ k' = k) as [-> ->].
    { destruct (Nat.lt_trichotomy (length a) (length t)) as [L|[L|L]].
      - assert (exists p, t = a ++ p /\ p <> []) as (p & Et & Hp).
        { exists (skipn (length a) t). 
          assert (Ea : a = firstn (length a) t).
          { apply (f_equal (firstn (length a))) in E. rewrite firstn_app, firstn_app, Nat.sub_diag in E.
            replace (length a - length t) with 0 in E by lia. cbn in E. rewrite !app_nil_r, firstn_all in E.
            now rewrite E. }
          split. 
          - rewrite Ea at 1. now rewrite firstn_skipn.
          - intro Z. apply (f_equal (@length ascii)) in Z. rewrite skipn_length in Z. cbn in Z. lia. }
        assert (Eb : b = p ++ s). { rewrite Et, <- app_assoc in E. now apply app_inv_head in E. }
        rewrite (Hl' p s Eb Hp) in Wa || (rewrite Et in W; rewrite (Hl' p s Eb Hp) in W; discriminate).
      - assert (a = t).
        { apply (f_equal (firstn (length a))) in E. rewrite firstn_app, firstn_app, Nat.sub_diag in E.
          rewrite L, Nat.sub_diag in E. cbn in E. rewrite !app_nil_r, <- L in E.
          rewrite firstn_all in E. rewrite L, firstn_all in E. now symmetry. }
        subst. rewrite W in Wa. injection Wa as ->. auto.
      - assert (exists p, a = t ++ p /\ p <> []) as (p & Et & Hp).
        { exists (skipn (length t) a).
          assert (Ea : t = firstn (length t) a).
          { apply (f_equal (firstn (length t))) in E. rewrite firstn_app, firstn_app, Nat.sub_diag in E.
            replace (length t - length a) with 0 in E by lia. cbn in E. rewrite !app_nil_r, firstn_all in E. auto. }
          split.
          - rewrite Ea at 1. now rewrite firstn_skipn.
          - intro Z. apply (f_equal (@length ascii)) in Z. rewrite skipn_length in Z. cbn in Z. lia. }
        assert (Eb : s = p ++ b). { rewrite Et, <- app_assoc in E. now apply app_inv_head in E. }
        rewrite Et, (Hl p b Eb Hp) in Wa. discriminate. }
    reflexivity.
  - exfalso. rewrite (Hn t s eq_refl) in W. discriminate.
Qed.
