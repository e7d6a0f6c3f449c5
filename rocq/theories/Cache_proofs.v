(** * The locking invariant of cached functions *)
From Coq Require Import List Bool Arith Lia.
From Verif Require Import Cache.
Import ListNotations.

Lemma upd_same : forall A B dec (m : A -> B) a b, upd dec m a b a = b.
Proof. intros. unfold upd. destruct (dec a a); congruence. Qed.
Lemma upd_other : forall A B dec (m : A -> B) a b x, x <> a -> upd dec m a b x = m x.
Proof. intros. unfold upd. destruct (dec x a); congruence. Qed.

Section P.
  Context {V K T W : Type}.
  Variable kdec : forall x y : K, {x = y} + {x <> y}.
  Variable key : V -> K.
  Variable isnan : V -> bool.
  Variable func : W -> V -> option T.
  Variable dflt : T.
  Variable active : bool.
  Variable n : nat.

  Notation label := (@label T).
  Notation state := (@state V K T W).
  Notation step := (step kdec key isnan func dflt active n).
  Notation call_step := (call_step kdec key isnan func dflt active).

  (** Holds the object lock. *)
  Definition crit (l : label) : bool :=
    match l with
    | P0 | W3 _ | W4 | C4 | C4b | C5 _ | Q1 => false
    | _ => true
    end.
  (** Counted in the record of its key. *)
  Definition counted (l : label) : bool :=
    match l with W1 | W2 _ | W3 _ | W4 | W5 => true | _ => false end.
  (** Holds the lock of the record of its key. *)
  Definition holder (l : label) : bool :=
    match l with
    | W4 | W5 | W6 | W7 | W8 | C2 | C3 | C4 | C4b | C5 _ | C6 _ | C7 _ | C8 | C9 | C10 => true
    | _ => false
    end.
  Definition involved (l : label) : bool :=
    match l with W0 | C1 => true | _ => counted l || holder l end.
  (** Is to store the value of its key. *)
  Definition calc (l : label) : bool :=
    match l with
    | P3 | C0 | C1 | C2 | C3 | C4 | C4b | C5 _ | C6 _ | C7 _ => true | _ => false end.
  Definition is_C1 (l : label) : bool := match l with C1 => true | _ => false end.
  Definition is_read (l : label) : bool := match l with PRead => true | _ => false end.

  Definition sel (k : K) (P : label -> bool) (x : option (V * label)) : bool :=
    match x with
    | Some (v, l) => if kdec (key v) k then P l else false
    | None => false
    end.

  Fixpoint cnt (k : K) (P : label -> bool) (at_ : nat -> option (V * label)) (m : nat) : nat :=
    match m with
    | O => 0
    | S j => (if sel k P (at_ j) then 1 else 0) + cnt k P at_ j
    end.

  Lemma cnt_ext : forall k P at1 at2 m, (forall j, j < m -> sel k P (at1 j) = sel k P (at2 j)) ->
    cnt k P at1 m = cnt k P at2 m.
  Proof.
    intros k P at1 at2 m. induction m as [|m IH]; intros H; [reflexivity|].
    cbn [cnt]. rewrite H by lia. f_equal. apply IH. intros j Hj. apply H. lia.
  Qed.

  Lemma cnt_change : forall k P at1 at2 i m, i < m ->
    (forall j, j <> i -> at2 j = at1 j) ->
    cnt k P at2 m + (if sel k P (at1 i) then 1 else 0) =
    cnt k P at1 m + (if sel k P (at2 i) then 1 else 0).
  Proof.
    intros k P at1 at2 i m. induction m as [|m IH]; intros Hi H; [lia|]. cbn [cnt].
    destruct (Nat.eq_dec i m) as [->|Hn].
    - rewrite (cnt_ext k P at2 at1 m); [lia|]. intros j Hj. rewrite H by lia. reflexivity.
    - rewrite (H m) by lia. specialize (IH ltac:(lia) H). lia.
  Qed.

  Lemma cnt_pos : forall k P at_ j m, j < m -> sel k P (at_ j) = true -> 0 < cnt k P at_ m.
  Proof.
    intros k P at_ j m. induction m as [|m IH]; intros Hj H; [lia|]. cbn [cnt].
    destruct (Nat.eq_dec j m) as [->|Hn]; [rewrite H; lia|]. specialize (IH ltac:(lia) H). lia.
  Qed.

  Lemma cnt_ex : forall k P at_ m, 0 < cnt k P at_ m -> exists j, j < m /\ sel k P (at_ j) = true.
  Proof.
    intros k P at_ m. induction m as [|m IH]; cbn [cnt]; intros H; [lia|].
    destruct (sel k P (at_ m)) eqn:E; [exists m; split; [lia|exact E]|].
    destruct IH as [j [Hj E']]; [lia|]. exists j. split; [lia|exact E'].
  Qed.

  Lemma sel_some : forall v l P, sel (key v) P (Some (v, l)) = P l.
  Proof. intros. cbn [sel]. destruct (kdec (key v) (key v)); congruence. Qed.

  Lemma sel_inv : forall k P x, sel k P x = true -> exists v l, x = Some (v, l) /\ key v = k /\ P l = true.
  Proof.
    intros k P [[v l]|] H; cbn [sel] in H; [|discriminate].
    destruct (kdec (key v) k); [|discriminate]. eauto.
  Qed.

  Definition at_ (s : state) (j : nat) : option (V * label) := th_at (s_ths s j).

  Definition hasrec (s : state) (k : K) (a : nat) (rc : record) : Prop :=
    s_inproc s k = Some a /\ s_heap s a = Some rc.

  Definition owned (s : state) (k : K) (j : nat) : Prop :=
    exists a rc, hasrec s k a rc /\ rc_owner rc = Some j.

  (** What a thread knows at each point. *)
  Definition local (s : state) (j : nat) (v : V) (l : label) : Prop :=
    let k := key v in
    (calc l = true -> s_cache s k = None) /\
    (match l with
     | W0 | W1 => exists a rc, hasrec s k a rc
     | W2 a | W3 a => exists rc, hasrec s k a rc
     | C0 => s_inproc s k = None
     | C1 => exists a, hasrec s k a (mkRec None 0)
     | C2 => exists a, hasrec s k a (mkRec (Some j) 0)
     | W7 | C10 => exists a rc, hasrec s k a rc /\ rc_owner rc = Some j /\ 0 < rc_count rc
     | W8 | C9 => exists a rc, hasrec s k a rc /\ rc_owner rc = Some j /\ rc_count rc = 0
     | W4 | W5 | W6 | C3 | C4 | C4b | C5 _ | C6 _ | C7 _ | C8 => owned s k j
     | _ => True
     end).

  Record Inv (s : state) : Prop := mkInv {
    inv_lock : forall j, j < n -> forall v l, at_ s j = Some (v, l) -> crit l = true ->
               s_lock s = Some j;
    inv_lock' : forall j, s_lock s = Some j ->
                j < n /\ exists v l, at_ s j = Some (v, l) /\ crit l = true;
    inv_local : forall j, j < n -> forall v l, at_ s j = Some (v, l) -> local s j v l;
    inv_rec : forall k a, s_inproc s k = Some a ->
              a < s_next s /\
              exists rc, s_heap s a = Some rc /\ rc_count rc = cnt k counted (at_ s) n /\
                match rc_owner rc with
                | Some j => (j < n /\ sel k holder (at_ s j) = true) \/ g_dead s k = true
                | None => g_dead s k = false /\
                          (0 < rc_count rc \/ exists j, j < n /\ sel k is_C1 (at_ s j) = true)
                end;
    inv_inj : forall k k' a, s_inproc s k = Some a -> s_inproc s k' = Some a -> k = k';
    inv_dead : forall k, g_dead s k = true ->
               s_cache s k = None /\ s_inproc s k <> None /\
               forall j, j < n -> sel k holder (at_ s j) = false /\ sel k is_C1 (at_ s j) = false /\
                                  sel k is_read (at_ s j) = false;
    inv_read : forall j, j < n -> forall v, at_ s j = Some (v, PRead) ->
               forall j', j' < n -> sel (key v) calc (at_ s j') = false;
    inv_viol : g_viol s = []
  }.

  Lemma hasrec_fun : forall s k a rc a' rc', hasrec s k a rc -> hasrec s k a' rc' -> a = a' /\ rc = rc'.
  Proof.
    intros s k a rc a' rc' [H1 H2] [H3 H4]. rewrite H1 in H3. injection H3 as ->.
    rewrite H2 in H4. injection H4 as ->. auto.
  Qed.

  (** Two holders of the same key are the same thread. *)
  Lemma local_holder : forall s j v l, local s j v l -> holder l = true -> owned s (key v) j.
  Proof.
    intros s j v l [_ H] Hh.
    destruct l; try discriminate; try exact H;
      try (destruct H as [a [rc [H1 [H2 _]]]]; exists a, rc; auto);
      try (destruct H as [a H1]; eexists a, _; split; [exact H1|reflexivity]).
  Qed.

  Lemma holder_unique : forall s j j' v v' l l', Inv s -> j < n -> j' < n ->
    at_ s j = Some (v, l) -> at_ s j' = Some (v', l') -> key v = key v' ->
    holder l = true -> holder l' = true -> j = j'.
  Proof.
    intros s j j' v v' l l' I Hj Hj' E E' Ek H H'.
    destruct (local_holder _ _ _ _ (inv_local s I j Hj v l E) H) as [a [rc [R O]]].
    destruct (local_holder _ _ _ _ (inv_local s I j' Hj' v' l' E') H') as [a' [rc' [R' O']]].
    rewrite <- Ek in R'. destruct (hasrec_fun _ _ _ _ _ _ R R') as [_ ->].
    rewrite O in O'. injection O'. auto.
  Qed.

  Lemma local_involved : forall s j v l, local s j v l -> involved l = true ->
    exists a rc, hasrec s (key v) a rc.
  Proof.
    intros s j v l [_ H] Hi.
    destruct l; try discriminate;
      try (destruct H as [a0 [rc0 [H1 H2]]]; eauto; fail);
      try (destruct H as [a0 [rc0 H1]]; eauto; fail);
      try (destruct H as [a0 H1]; eauto; fail).
  Qed.

  (** Threads outside the critical section. *)
  Lemma local_frame : forall s s' j v l, crit l = false -> local s j v l ->
    (calc l = true -> s_cache s' (key v) = None) ->
    (involved l = true -> forall a rc, hasrec s (key v) a rc ->
       exists rc', hasrec s' (key v) a rc' /\ (rc_owner rc = Some j -> rc_owner rc' = Some j)) ->
    local s' j v l.
  Proof.
    intros s s' j v l Hc [L1 L2] H1 H2. split; [exact H1|].
    destruct l; try discriminate; try exact I;
      try (destruct L2 as [rc R]; destruct (H2 eq_refl _ _ R) as [rc' [R' _]]; eauto; fail);
      destruct L2 as [a' [rc [R O]]]; destruct (H2 eq_refl _ _ R) as [rc' [R' O']];
      exists a', rc'; auto.
  Qed.

  (** Nobody else is involved with a key whose record has owner [i] and no waiters. *)
  Lemma alone : forall s i v l, Inv s -> i < n -> at_ s i = Some (v, l) -> crit l = true ->
    (exists a rc, hasrec s (key v) a rc /\ (rc_owner rc = Some i \/ rc_owner rc = None) /\
                  rc_count rc = 0) ->
    forall j v' l', j < n -> j <> i -> at_ s j = Some (v', l') -> key v' = key v ->
      involved l' = false.
  Proof.
    intros s i v l I Hi E Hc [a [rc [R [O Z]]]] j v' l' Hj Hn E' Ek.
    destruct (involved l') eqn:Hi'; [|reflexivity]. exfalso.
    assert (Hl : s_lock s = Some i) by (eapply inv_lock; eassumption).
    assert (Hc' : crit l' = false).
    { destruct (crit l') eqn:Q; [|reflexivity].
      pose proof (inv_lock s I j Hj v' l' E' Q) as Q'. rewrite Hl in Q'. congruence. }
    assert (Hor : counted l' = true \/ holder l' = true).
    { destruct l'; try discriminate; auto. }
    destruct Hor as [Hx|Hx].
    - destruct (inv_rec s I (key v) a (proj1 R)) as [_ [rc2 [R2 [N2 _]]]].
      rewrite (proj2 R) in R2. injection R2 as <-.
      assert (0 < cnt (key v) counted (at_ s) n); [|lia].
      apply (cnt_pos _ _ _ j); [exact Hj|]. rewrite E', <- Ek, sel_some. exact Hx.
    - destruct (local_holder s j v' l' (inv_local s I j Hj v' l' E') Hx) as [a' [rc' [R' O']]].
      rewrite Ek in R'. destruct (hasrec_fun _ _ _ _ _ _ R R') as [_ <-].
      destruct O as [O|O]; congruence.
  Qed.

  Definition critx (x : option (V * label)) : bool :=
    match x with Some (_, l) => crit l | None => false end.

  Definition rec_ok (s : state) : Prop :=
    forall k a, s_inproc s k = Some a ->
      a < s_next s /\
      exists rc, s_heap s a = Some rc /\ rc_count rc = cnt k counted (at_ s) n /\
        match rc_owner rc with
        | Some j => (j < n /\ sel k holder (at_ s j) = true) \/ g_dead s k = true
        | None => g_dead s k = false /\
                  (0 < rc_count rc \/ exists j, j < n /\ sel k is_C1 (at_ s j) = true)
        end.

  (** The lock moves with thread [i]. *)
  Definition lock_moves (s s' : state) (i : nat) : Prop :=
    s_lock s' = (if critx (at_ s' i) then Some i
                 else if critx (at_ s i) then None else s_lock s) /\
    (critx (at_ s' i) = true -> critx (at_ s i) = false -> s_lock s = None).

  Lemma other_not_crit : forall s i j v l, Inv s -> i < n -> j < n -> j <> i ->
    critx (at_ s i) = true -> at_ s j = Some (v, l) -> crit l = false.
  Proof.
    intros s i j v l I Hi Hj Hn Hc E. destruct (crit l) eqn:Q; [|reflexivity].
    destruct (at_ s i) as [[v' l']|] eqn:E'; [|discriminate].
    pose proof (inv_lock s I i Hi _ _ E' Hc). pose proof (inv_lock s I j Hj _ _ E Q). congruence.
  Qed.

  Lemma inv_build : forall s s' i, Inv s -> i < n ->
    (forall j, j <> i -> at_ s' j = at_ s j) ->
    g_viol s' = [] -> lock_moves s s' i ->
    (forall v l, at_ s' i = Some (v, l) -> local s' i v l) ->
    (forall j v l, j < n -> j <> i -> at_ s j = Some (v, l) -> local s' j v l) ->
    rec_ok s' ->
    (forall k k' a, s_inproc s' k = Some a -> s_inproc s' k' = Some a -> k = k') ->
    (forall k, g_dead s' k = true ->
       s_cache s' k = None /\ s_inproc s' k <> None /\
       forall j, j < n -> sel k holder (at_ s' j) = false /\ sel k is_C1 (at_ s' j) = false /\
                          sel k is_read (at_ s' j) = false) ->
    (forall k, sel k calc (at_ s' i) = true -> sel k calc (at_ s i) = true \/ critx (at_ s' i) = true) ->
    (forall v, at_ s' i = Some (v, PRead) ->
       forall j, j < n -> j <> i -> sel (key v) calc (at_ s j) = false) ->
    Inv s'.
  Proof.
    intros s s' i I Hi Ho Hv [HL1 HL2] Hli Hlo Hr Hj Hd Hc Hp.
    assert (Hnc : critx (at_ s' i) = true -> forall j v l, j < n -> j <> i ->
                  at_ s j = Some (v, l) -> crit l = false).
    { intros Hx j v l Hjn Hji E. destruct (critx (at_ s i)) eqn:Q.
      - exact (other_not_crit s i j v l I Hi Hjn Hji Q E).
      - specialize (HL2 Hx eq_refl). destruct (crit l) eqn:Q'; [|reflexivity].
        pose proof (inv_lock s I j Hjn _ _ E Q'). congruence. }
    constructor; try assumption.
    - intros j Hjn v l E Q. destruct (Nat.eq_dec j i) as [->|Hji].
      + rewrite HL1, E. cbn [critx]. rewrite Q. reflexivity.
      + rewrite (Ho j Hji) in E.
        destruct (critx (at_ s' i)) eqn:Q1.
        { rewrite (Hnc eq_refl j v l Hjn Hji E) in Q. discriminate. }
        rewrite HL1. destruct (critx (at_ s i)) eqn:Q2.
        { rewrite (other_not_crit s i j v l I Hi Hjn Hji Q2 E) in Q. discriminate. }
        exact (inv_lock s I j Hjn v l E Q).
    - intros j E. rewrite HL1 in E. destruct (critx (at_ s' i)) eqn:Q1.
      + injection E as <-. split; [exact Hi|].
        destruct (at_ s' i) as [[v l]|]; [|discriminate]. exists v, l. auto.
      + destruct (critx (at_ s i)) eqn:Q2; [discriminate|].
        destruct (inv_lock' s I j E) as [Hjn [v [l [E1 E2]]]]. split; [exact Hjn|].
        exists v, l. destruct (Nat.eq_dec j i) as [->|Hji].
        * rewrite E1 in Q2. cbn [critx] in Q2. congruence.
        * rewrite (Ho j Hji). auto.
    - intros j Hjn v l E. destruct (Nat.eq_dec j i) as [->|Hji]; [auto|].
      rewrite (Ho j Hji) in E. eauto.
    - intros j Hjn v E j' Hj'. destruct (Nat.eq_dec j i) as [->|Hji].
      + destruct (Nat.eq_dec j' i) as [->|Hji'].
        * rewrite E, sel_some. reflexivity.
        * rewrite (Ho j' Hji'). apply (Hp v E j' Hj' Hji').
      + rewrite (Ho j Hji) in E. destruct (Nat.eq_dec j' i) as [->|Hji'].
        * destruct (sel (key v) calc (at_ s' i)) eqn:Q; [|reflexivity].
          destruct (Hc _ Q) as [Q1|Q1].
          -- rewrite (inv_read s I j Hjn v E i Hi) in Q1. discriminate.
          -- pose proof (Hnc Q1 j v PRead Hjn Hji E). discriminate.
        * rewrite (Ho j' Hji'). exact (inv_read s I j Hjn v E j' Hj').
  Qed.

  (** ** The records *)

  Lemma sel_other : forall k v l P, key v <> k -> sel k P (Some (v, l)) = false.
  Proof. intros. cbn [sel]. destruct (kdec (key v) k); congruence. Qed.

  (** Records untouched. *)
  Lemma rec_same : forall s s' i, Inv s -> i < n ->
    (forall j, j <> i -> at_ s' j = at_ s j) ->
    s_inproc s' = s_inproc s -> s_heap s' = s_heap s -> s_next s' = s_next s -> g_dead s' = g_dead s ->
    (forall k, sel k counted (at_ s' i) = sel k counted (at_ s i)) ->
    (forall k, sel k holder (at_ s' i) = sel k holder (at_ s i)) ->
    (forall k, sel k is_C1 (at_ s' i) = sel k is_C1 (at_ s i)) ->
    rec_ok s'.
  Proof.
    intros s s' i I Hi Ho E1 E2 E3 E4 H1 H2 H3 k a Ha. rewrite E1 in Ha. rewrite E2, E3, E4.
    destruct (inv_rec s I k a Ha) as [Hlt [rc [R [N O]]]]. split; [exact Hlt|].
    exists rc. split; [exact R|]. split.
    - rewrite N. apply cnt_ext. intros j _. destruct (Nat.eq_dec j i) as [->|Hj];
        [rewrite H1|rewrite Ho]; auto.
    - destruct (rc_owner rc) as [j|].
      + destruct O as [[Hj O]|O]; [|auto]. left. split; [exact Hj|].
        destruct (Nat.eq_dec j i) as [->|Hji]; [rewrite H2|rewrite Ho]; auto.
      + destruct O as [D O]. split; [exact D|]. destruct O as [O|[j [Hj O]]]; [auto|].
        right. exists j. split; [exact Hj|].
        destruct (Nat.eq_dec j i) as [->|Hji]; [rewrite H3|rewrite Ho]; auto.
  Qed.

  Lemma rec_other : forall s s' i v l l' k a, Inv s -> i < n ->
    at_ s i = Some (v, l) -> at_ s' i = Some (v, l') -> (forall j, j <> i -> at_ s' j = at_ s j) ->
    g_dead s' = g_dead s -> key v <> k -> s_inproc s k = Some a ->
    s_next s <= s_next s' -> s_heap s' a = s_heap s a ->
    a < s_next s' /\
      exists rc, s_heap s' a = Some rc /\ rc_count rc = cnt k counted (at_ s') n /\
        match rc_owner rc with
        | Some j => (j < n /\ sel k holder (at_ s' j) = true) \/ g_dead s' k = true
        | None => g_dead s' k = false /\
                  (0 < rc_count rc \/ exists j, j < n /\ sel k is_C1 (at_ s' j) = true)
        end.
  Proof.
    intros s s' i v l l' k a I Hi Ex Ex' Ho E4 Hk Ha Hle Eh. rewrite Eh, E4.
    destruct (inv_rec s I k a Ha) as [Hlt [rc [R [N O]]]]. split; [lia|].
    exists rc. split; [exact R|].
    assert (Hs : forall P j, sel k P (at_ s' j) = sel k P (at_ s j)).
    { intros P j. destruct (Nat.eq_dec j i) as [->|Hj]; [|rewrite Ho; auto].
      rewrite Ex, Ex', !sel_other; auto. }
    split.
    - rewrite N. apply cnt_ext. intros j _. symmetry. apply Hs.
    - destruct (rc_owner rc) as [j|].
      + rewrite Hs. exact O.
      + destruct O as [D O]. split; [exact D|]. destruct O as [O|[j [Hj O]]]; [auto|].
        right. exists j. rewrite Hs. auto.
  Qed.

  (** One record updated. *)
  Lemma rec_upd : forall s s' i v l l' a rc rc', Inv s -> i < n ->
    at_ s i = Some (v, l) -> at_ s' i = Some (v, l') -> (forall j, j <> i -> at_ s' j = at_ s j) ->
    hasrec s (key v) a rc ->
    s_inproc s' = s_inproc s -> s_next s' = s_next s -> g_dead s' = g_dead s ->
    s_heap s' = upd Nat.eq_dec (s_heap s) a (Some rc') ->
    rc_count rc' + (if counted l then 1 else 0) = rc_count rc + (if counted l' then 1 else 0) ->
    match rc_owner rc' with
    | Some j => (j < n /\ sel (key v) holder (at_ s' j) = true) \/ g_dead s (key v) = true
    | None => g_dead s (key v) = false /\
              (0 < rc_count rc' \/ exists j, j < n /\ sel (key v) is_C1 (at_ s' j) = true)
    end ->
    rec_ok s'.
  Proof.
    intros s s' i v l l' a rc rc' I Hi Ex Ex' Ho [Ra Rh] E1 E3 E4 E2 Hcnt Hown k b Hb.
    rewrite E1 in Hb. destruct (kdec (key v) k) as [<-|Hk].
    - rewrite Ra in Hb. injection Hb as <-.
      destruct (inv_rec s I _ _ Ra) as [Hlt [rc0 [R [N O]]]].
      rewrite Rh in R. injection R as <-. rewrite E3, E4. split; [exact Hlt|].
      exists rc'. rewrite E2, upd_same. split; [reflexivity|]. split; [|exact Hown].
      pose proof (cnt_change (key v) counted (at_ s) (at_ s') i n Hi Ho) as C.
      rewrite Ex, Ex', !sel_some in C. lia.
    - eapply rec_other; try eassumption; try lia.
      rewrite E2, upd_other; [reflexivity|]. intros ->.
      apply Hk. eapply inv_inj; eassumption.
  Qed.

  (** One record erased. *)
  Lemma rec_erase : forall s s' i v l l' a, Inv s -> i < n ->
    at_ s i = Some (v, l) -> at_ s' i = Some (v, l') -> (forall j, j <> i -> at_ s' j = at_ s j) ->
    s_inproc s (key v) = Some a ->
    s_inproc s' = upd kdec (s_inproc s) (key v) None -> s_next s' = s_next s ->
    g_dead s' = g_dead s ->
    s_heap s' = upd Nat.eq_dec (s_heap s) a None ->
    rec_ok s'.
  Proof.
    intros s s' i v l l' a I Hi Ex Ex' Ho Ra E1 E3 E4 E2 k b Hb.
    rewrite E1 in Hb. destruct (kdec (key v) k) as [<-|Hk]; [rewrite upd_same in Hb; discriminate|].
    rewrite upd_other in Hb by auto. eapply rec_other; try eassumption; try lia.
    rewrite E2, upd_other; [reflexivity|]. intros ->. apply Hk. eapply inv_inj; eassumption.
  Qed.

  (** One record created. *)
  Lemma rec_create : forall s s' i v l, Inv s -> i < n ->
    at_ s i = Some (v, l) -> at_ s' i = Some (v, C1) -> (forall j, j <> i -> at_ s' j = at_ s j) ->
    s_inproc s (key v) = None ->
    s_inproc s' = upd kdec (s_inproc s) (key v) (Some (s_next s)) -> s_next s' = S (s_next s) ->
    g_dead s' = g_dead s ->
    s_heap s' = upd Nat.eq_dec (s_heap s) (s_next s) (Some (mkRec None 0)) ->
    rec_ok s'.
  Proof.
    intros s s' i v l I Hi Ex Ex' Ho Ra E1 E3 E4 E2 k b Hb.
    rewrite E1 in Hb. destruct (kdec (key v) k) as [<-|Hk].
    - rewrite upd_same in Hb. injection Hb as <-. split; [lia|].
      eexists. rewrite E2, upd_same. split; [reflexivity|]. cbn [rc_count rc_owner].
      split.
      + symmetry. destruct (cnt (key v) counted (at_ s') n) eqn:Q; [reflexivity|]. exfalso.
        destruct (cnt_ex (key v) counted (at_ s') n) as [j [Hj Hs]]; [lia|].
        destruct (sel_inv _ _ _ Hs) as [v' [l' [E [Ek Hc]]]].
        destruct (Nat.eq_dec j i) as [->|Hji]; [rewrite Ex' in E; injection E as <- <-; discriminate|].
        rewrite Ho in E by exact Hji.
        destruct (local_involved s j v' l' (inv_local s I j Hj _ _ E)) as [a [rc [R _]]];
          [destruct l'; try discriminate; reflexivity|congruence].
      + split.
        * rewrite E4. destruct (g_dead s (key v)) eqn:D; [|reflexivity].
          destruct (inv_dead s I _ D) as [_ [Q _]]. congruence.
        * right. exists i. split; [exact Hi|]. rewrite Ex', sel_some. reflexivity.
    - rewrite upd_other in Hb by auto. eapply rec_other; try eassumption; try lia.
      rewrite E2, upd_other; [reflexivity|]. intros ->.
      destruct (inv_rec s I _ _ Hb) as [Hlt _]. lia.
  Qed.

  (** Other threads while [i] is in the critical section. *)
  Lemma locals_frame : forall s s' i v l, Inv s -> i < n -> at_ s i = Some (v, l) -> crit l = true ->
    (forall k, k <> key v -> s_cache s' k = s_cache s k) ->
    (s_cache s' (key v) = s_cache s (key v) \/
     forall j, j < n -> j <> i -> sel (key v) calc (at_ s j) = false) ->
    (forall k a rc, k <> key v -> hasrec s k a rc -> hasrec s' k a rc) ->
    ((forall a rc, hasrec s (key v) a rc -> exists rc', hasrec s' (key v) a rc' /\
        forall j, j <> i -> rc_owner rc = Some j -> rc_owner rc' = Some j) \/
     (forall j v' l', j < n -> j <> i -> at_ s j = Some (v', l') -> key v' = key v ->
        involved l' = false)) ->
    forall j v' l', j < n -> j <> i -> at_ s j = Some (v', l') -> local s' j v' l'.
  Proof.
    intros s s' i v l I Hi Ex Hc C1 C2 R1 R2 j v' l' Hj Hji E.
    assert (Hnc : crit l' = false).
    { eapply (other_not_crit s i j); try eassumption. rewrite Ex. exact Hc. }
    pose proof (inv_local s I j Hj _ _ E) as L.
    apply (local_frame s s' j v' l' Hnc L).
    - intros Hcal. destruct (kdec (key v') (key v)) as [Ek|Hk].
      + destruct C2 as [C2|C2].
        * rewrite Ek, C2, <- Ek. apply (proj1 L). exact Hcal.
        * specialize (C2 j Hj Hji). rewrite E, <- Ek, sel_some in C2. congruence.
      + rewrite C1 by exact Hk. apply (proj1 L). exact Hcal.
    - intros Hin a rc R. destruct (kdec (key v') (key v)) as [Ek|Hk].
      + destruct R2 as [R2|R2].
        * rewrite Ek in R. destruct (R2 a rc R) as [rc' [R' O']]. exists rc'. rewrite Ek.
          split; [exact R'|]. intros O. apply O'; auto.
        * rewrite (R2 j v' l' Hj Hji E Ek) in Hin. discriminate.
      + exists rc. split; [apply R1; assumption|auto].
  Qed.

  Lemma local_same : forall s s' j v l, s_cache s' = s_cache s -> s_inproc s' = s_inproc s ->
    s_heap s' = s_heap s -> local s j v l -> local s' j v l.
  Proof.
    intros s s' j v l E1 E2 E3 H. unfold local, owned, hasrec in *. rewrite E1, E2, E3. exact H.
  Qed.
End P.
