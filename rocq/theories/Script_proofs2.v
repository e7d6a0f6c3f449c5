(** Proofs about scripts: what each command does to the objects. *)

Require Import List Arith Bool Lia.
From Verif Require Import Replaceable Replaceable_proofs Graph Graph_spec Script Script_spec.
From Verif Require Import Graph_proofs Graph_proofs2 Graph_proofs4 Script_proofs.
Import ListNotations.

Section Proofs.

Context {X V P : Type}.
Variable C : calcs X V P.
Notation state := (@st X V P).
Implicit Types s : state.

(** ** Notification leaves the objects alone, whatever the state *)

Record core s s' : Prop := {
  co_fresh : fresh s' = fresh s;
  co_node : node_of s' = node_of s;
  co_rep : rep s' = rep s;
  co_ptr : ptr s' = ptr s;
  co_cid : cid s' = cid s;
  co_entries : entries s' = entries s
}.

Lemma core_refl : forall s, core s s.
Proof. constructor; auto. Qed.
Lemma core_trans : forall a b c, core a b -> core b c -> core a c.
Proof. intros a b c [] []. constructor; congruence. Qed.
Lemma core_cch : forall a b, cch a b -> core a b.
Proof. intros a b []. constructor; auto. Qed.
Lemma core_alive : forall a s, core s (check_alive a s).
Proof. intros. unfold check_alive. destruct (node_of s a); constructor; auto. Qed.
Lemma core_wipe : forall w s, core s (wipe w s).
Proof. constructor; auto. Qed.

Lemma core_fold : forall (f : state -> slot -> state) cs s,
  (forall s' sl, core s' (f s' sl)) -> core s (fold_left f cs s).
Proof.
  intros f cs. induction cs as [|c r IH]; intros s H; cbn; [apply core_refl|].
  eapply core_trans; [apply H|apply IH; auto].
Qed.

Lemma core_touch : forall n sl s, core s (touch n sl s).
Proof.
  induction n as [|n IH]; intros sl s; cbn [touch].
  - destruct (notifies sl).
    + eapply core_trans; [apply (core_alive (owner sl))|]. constructor; auto.
    + eapply core_trans; [apply (core_alive (owner sl))|]. apply core_wipe.
  - destruct (notifies sl).
    + eapply core_trans; [apply (core_alive (owner sl))|]. eapply core_trans; [apply core_wipe|].
      apply core_fold. intros; apply IH.
    + eapply core_trans; [apply (core_alive (owner sl))|]. apply core_wipe.
Qed.

Lemma core_notify : forall o s, core s (notify o s).
Proof. intros. apply core_fold. intros; apply core_touch. Qed.

(** ** Replacement *)

Record moved (o' : nat) (cs : list slot) s s' : Prop := {
  mv_fresh : fresh s' = fresh s;
  mv_node : node_of s' = node_of s;
  mv_rep : rep s' = rep s;
  mv_entries : entries s' = entries s;
  mv_ptr : forall sl, ptr s' sl = ptr s sl \/ (ptr s' sl = Some o' /\ exists c, In c cs /\ sl = assigns c)
}.

Lemma moved_one : forall o' c s, moved o' [c] s (replaced o' s c).
Proof.
  intros o' c s. unfold replaced.
  set (s1 := point (assigns c) o' (wipe (clears c) (check_alive (owner c) s))).
  assert (K : moved o' [c] s s1).
  { pose proof (core_alive (owner c) s) as []. constructor; cbn; auto.
    intros sl. unfold upd_slot. destruct (slot_eqb sl (assigns c)) eqn:E.
    - apply slot_eqb_spec in E. right. split; auto. exists c. cbn; auto.
    - left. rewrite co_ptr0. auto. }
  destruct (notifies c); [|exact K].
  pose proof (core_notify (owner c) s1) as []. destruct K. constructor; try congruence.
  intros sl. rewrite co_ptr0. auto.
Qed.

Lemma moved_fold : forall o' cs s, moved o' cs s (fold_left (replaced o') cs s).
Proof.
  intros o' cs. induction cs as [|c r IH]; intros s; cbn [fold_left].
  - constructor; auto.
  - pose proof (moved_one o' c s) as []. pose proof (IH (replaced o' s c)) as [].
    constructor; try congruence. intros sl.
    destruct (mv_ptr1 sl) as [E|[E [x [Hx Hs]]]].
    + rewrite E. destruct (mv_ptr0 sl) as [E0|[E0 [x [Hx Hs]]]]; auto.
      right. split; auto. exists x. destruct Hx as [->|[]]. cbn; auto.
    + right. split; auto. exists x. cbn; auto.
Qed.

Lemma replace_loose : forall o o' s,
  let s' := do_replace o o' s in
  fresh s' = fresh s /\ node_of s' = node_of s /\ entries s' = entries s /\
  (forall sl, ptr s' sl = ptr s sl \/ (ptr s' sl = Some o' /\ exists c, In c (clients (rep s o)) /\ sl = assigns c)) /\
  (forall p sl, In sl (clients (rep s' p)) -> In sl (clients (rep s p)) \/ (p = o' /\ In sl (clients (rep s o)))).
Proof.
  intros o o' s. unfold do_replace.
  set (s1 := set_rep (upd (rep s) o' (take_over (rep s o) (rep s o'))) s).
  pose proof (moved_fold o' (clients (rep s o)) s1) as [M1 M2 M3 M4 M5].
  cbn zeta. cbn [fresh node_of entries ptr rep set_rep].
  refine (conj M1 (conj M2 (conj M4 (conj M5 _)))).
  intros p sl. rewrite M3. unfold s1. cbn [rep set_rep]. unfold upd.
  destruct (p =? o) eqn:E1; [intros []|].
  destruct (Nat.eqb_spec p o') as [->|N]; [|auto]. intros I. right. split; auto.
Qed.

(** ** The loose invariant *)

Definition bound s (sl : slot) : Prop :=
  owner sl < fresh s /\ match sl with SEntry _ k => k < fresh s | _ => True end.

Record Loose s : Prop := {
  w_ptr : forall sl o, ptr s sl = Some o -> kd (node_of s o) = tk sl /\ bound s sl;
  w_cli : forall o sl, In sl (clients (rep s o)) ->
            (node_of s o = None \/ kd (node_of s o) = tk sl) /\ bound s sl;
  w_new : forall o, fresh s <= o -> node_of s o = None /\ clients (rep s o) = [] /\ entries s o = [];
  w_ent : forall t k, In k (entries s t) -> k < fresh s;
  w_whole : Whole s
}.

Lemma loose_alive : forall s o, Loose s -> node_of s o <> None -> o < fresh s.
Proof.
  intros s o W H. destruct (Nat.lt_ge_cases o (fresh s)) as [|G]; auto.
  destruct (w_new _ W _ G). congruence.
Qed.

Lemma loose_st0 : forall p, Loose (st0 p).
Proof.
  intros. constructor; cbn; auto; try discriminate; try tauto.
Qed.

Lemma loose_core : forall s s', core s s' -> Loose s -> Loose s'.
Proof.
  intros s s' [F N R Q I E] [W1 W2 W3 W4 W5].
  constructor; unfold bound, Whole in *; rewrite ?F, ?N, ?R, ?Q, ?E; auto.
Qed.

Lemma in_put_any : forall A (l : list (nat * A)) k a k' a', In (k', a') (put k a l) -> a' = a \/ In (k', a') l.
Proof.
  intros A l. induction l as [|[j b] r IH]; intros k a k' a'; cbn [put In].
  - intros [E|[]]. inversion E; auto.
  - destruct (k <? j); [intros [E|I]; [inversion E; auto|auto]|].
    destruct (k =? j); [intros [E|I]; [inversion E; auto|auto]|].
    intros [E|I]; [auto|]. apply IH in I. tauto.
Qed.

Lemma clients_add : forall s sl o p x, In x (clients (rep (register sl o s) p)) ->
  In x (clients (rep s p)) \/ (p = o /\ x = sl).
Proof.
  intros s sl o p x. unfold register, add_callbacks. cbn. unfold upd.
  destruct (Nat.eqb_spec p o) as [->|N]; [|auto]. unfold clients. cbn.
  rewrite in_map_iff. intros [[k y] [E I]]. cbn in E. subst y. apply in_put_any in I.
  destruct I as [->|I]; [auto|]. left. apply in_map_iff. exists (k, x). auto.
Qed.

Lemma register_ptr' : forall sl o s sl', sl' <> sl -> ptr (register sl o s) sl' = ptr s sl'.
Proof. intros. apply us_other; auto. Qed.

Lemma clients_del : forall A (l : list (nat * A)) k x, In x (map snd (del k l)) -> In x (map snd l).
Proof.
  intros A l. induction l as [|[j b] r IH]; intros k x; cbn; [auto|].
  destruct (k =? j); cbn; [auto|]. intros [E|I]; eauto.
Qed.

(** Registration of any pointer of an existing object to an object of the right
    kind. *)
Lemma loose_register : forall s sl o, Loose s -> kd (node_of s o) = tk sl -> bound s sl -> Loose (register sl o s).
Proof.
  intros s sl o W K B. pose proof W as [W1 W2 W3 W4 W5]. constructor.
  - intros sl' p. cbn. unfold upd_slot. destruct (slot_eqb sl' sl) eqn:E.
    + apply slot_eqb_spec in E. intros Q. inversion Q; subst. auto.
    + apply W1.
  - intros p x I. apply clients_add in I. destruct I as [I|[-> ->]]; [apply (W2 _ _ I)|]. auto.
  - intros p Hp. cbn in Hp |- *. destruct (W3 _ Hp) as (A & B' & C'). refine (conj A (conj _ C')).
    unfold upd. destruct (Nat.eqb_spec p o) as [->|N]; auto.
    rewrite A in K. destruct sl; discriminate.
  - exact W4.
  - intros p n x E I. cbn in *. unfold upd_slot. destruct (slot_eqb x sl); [discriminate|]. eapply W5; eauto.
Qed.

(** A state in which the object under construction lacks some pointers. *)
Definition lacking (o : nat) s : Prop :=
  (forall sl p, ptr s sl = Some p -> kd (node_of s p) = tk sl /\ bound s sl) /\
  (forall p sl, In sl (clients (rep s p)) -> (node_of s p = None \/ kd (node_of s p) = tk sl) /\ bound s sl) /\
  (forall p, fresh s <= p -> node_of s p = None /\ clients (rep s p) = [] /\ entries s p = []) /\
  (forall t k, In k (entries s t) -> k < fresh s) /\
  (forall p n sl, p <> o -> node_of s p = Some n -> In sl (required p n) -> ptr s sl <> None).

Lemma lacking_alloc : forall s n, Loose s -> lacking (fresh s) (alloc n s).
Proof.
  intros s n W. pose proof W as [W1 W2 W3 W4 W5].
  assert (A : forall o, node_of s o <> None -> o < fresh s) by (intros; apply loose_alive; auto).
  assert (Bd : forall sl, bound s sl -> bound (alloc n s) sl).
  { intros sl [B1 B2]. split; cbn; [lia|]. destruct sl; auto; lia. }
  refine (conj _ (conj _ (conj _ (conj _ _)))); cbn.
  - intros sl p E. destruct (W1 _ _ E) as [K B]. split; auto.
    rewrite upd_other; auto. assert (p < fresh s); [|lia]. apply A. intros Q. rewrite Q in K. destruct sl; discriminate.
  - intros p sl I. destruct (W2 _ _ I) as [K B]. split; auto. unfold upd. destruct (Nat.eqb_spec p (fresh s)) as [->|N]; auto.
    destruct (W3 (fresh s) (le_n _)) as (_ & E & _). rewrite E in I. destruct I.
  - intros p Hp. rewrite upd_other by lia. apply W3. lia.
  - intros t k I. apply W4 in I. lia.
  - intros p m sl Np. rewrite upd_other by auto. apply W5.
Qed.

Lemma lacking_register : forall s sl o p, lacking o s -> kd (node_of s p) = tk sl -> bound s sl -> lacking o (register sl p s).
Proof.
  intros s sl o p (W1 & W2 & W3 & W4 & W5) K B. refine (conj _ (conj _ (conj _ (conj _ _)))).
  - intros sl' q. cbn. unfold upd_slot. destruct (slot_eqb sl' sl) eqn:E.
    + apply slot_eqb_spec in E. intros Q. inversion Q; subst. auto.
    + apply W1.
  - intros q x I. apply clients_add in I. destruct I as [I|[-> ->]]; [apply (W2 _ _ I)|]. auto.
  - intros q Hp. cbn in Hp |- *. destruct (W3 _ Hp) as (A & B' & C'). refine (conj A (conj _ C')).
    unfold upd. destruct (Nat.eqb_spec q p) as [->|N]; auto.
    rewrite A in K. destruct sl; discriminate.
  - exact W4.
  - intros q n x N E I. cbn in *. unfold upd_slot. destruct (slot_eqb x sl); [discriminate|]. eapply W5; eauto.
Qed.

Lemma lacking_done : forall s o, lacking o s ->
  (forall n sl, node_of s o = Some n -> In sl (required o n) -> ptr s sl <> None) -> Loose s.
Proof.
  intros s o (W1 & W2 & W3 & W4 & W5) H. constructor; auto.
  intros p n sl E I. destruct (Nat.eq_dec p o) as [->|N]; eauto.
Qed.

Lemma loose_fresh : forall s k, Loose s -> fresh s <= k -> Loose (set_fresh k s).
Proof.
  intros s k W H. pose proof W as [W1 W2 W3 W4 W5].
  assert (Bd : forall sl, bound s sl -> bound (set_fresh k s) sl).
  { intros sl [B1 B2]. split; cbn; [lia|]. destruct sl; auto; lia. }
  constructor; cbn; auto.
  - intros sl o E. destruct (W1 _ _ E). auto.
  - intros o sl I. destruct (W2 _ _ I). auto.
  - intros o Ho. apply W3. lia.
  - intros t j I. apply W4 in I. lia.
Qed.

Lemma loose_replace : forall s o o', Loose s -> same_type s o o' = true -> Loose (do_replace o o' s).
Proof.
  intros s o o' W T. pose proof W as [W1 W2 W3 W4 W5].
  pose proof (same_type_kd _ _ _ T) as K.
  assert (Hl : node_of s o <> None /\ node_of s o' <> None).
  { unfold same_type, is_det, is_prob, is_im, is_edp, is_frag, is_loss, is_grp in T.
    destruct (node_of s o), (node_of s o'); try (split; discriminate); cbn in T; try discriminate;
    destruct n; discriminate T. }
  destruct Hl as [Hl Hl'].
  destruct (replace_loose o o' s) as (R1 & R2 & R3 & R4 & R5).
  assert (Bd : forall sl, bound s sl -> bound (do_replace o o' s) sl).
  { intros sl B. unfold bound. rewrite R1. exact B. }
  assert (Tk : forall c, In c (clients (rep s o)) -> kd (node_of s o') = tk (assigns c) /\ bound s (assigns c)).
  { intros c I. destruct (W2 _ _ I) as [[Q|Q] B]; [congruence|]. split.
    - rewrite <- K, Q. destruct c; auto.
    - destruct c; auto. }
  constructor.
  - intros sl p. rewrite R2. destruct (R4 sl) as [E|[E [c [I Ec]]]].
    + rewrite E. intros Q. destruct (W1 _ _ Q). auto.
    + rewrite E. intros Q. inversion Q; subst. destruct (Tk _ I). auto.
  - intros p sl I. rewrite R2. apply R5 in I. destruct I as [I|[-> I]].
    + destruct (W2 _ _ I). auto.
    + destruct (W2 _ _ I) as [[Q|Q] B]; [congruence|]. split; auto. right. congruence.
  - intros p. rewrite R1, R2, R3. intros Hp. destruct (W3 _ Hp) as (A & B & D). refine (conj A (conj _ D)).
    destruct (clients (rep (do_replace o o' s) p)) as [|sl r] eqn:E; auto. exfalso.
    assert (I : In sl (clients (rep (do_replace o o' s) p))) by (rewrite E; left; auto).
    apply R5 in I. destruct I as [I|[-> I]]; [rewrite B in I; destruct I|congruence].
  - rewrite R1, R3. exact W4.
  - intros p n sl. rewrite R2. intros E I. destruct (R4 sl) as [Q|[Q _]]; rewrite Q; [eapply W5; eauto|discriminate].
Qed.

Lemma unregister_loose : forall l s,
  let s' := fold_left unregister l s in
  fresh s' = fresh s /\ node_of s' = node_of s /\ ptr s' = ptr s /\ entries s' = entries s /\
  (forall p x, In x (clients (rep s' p)) -> In x (clients (rep s p))).
Proof.
  induction l as [|sl r IH]; intros s; cbn [fold_left].
  - cbn. auto 6.
  - destruct (IH (unregister s sl)) as (A & B & D & E & F).
    assert (U : fresh (unregister s sl) = fresh s /\ node_of (unregister s sl) = node_of s /\
                ptr (unregister s sl) = ptr s /\ entries (unregister s sl) = entries s /\
                forall p x, In x (clients (rep (unregister s sl) p)) -> In x (clients (rep s p))).
    { unfold unregister. destruct (ptr s sl); auto 6. cbn. repeat split; auto.
      intros p x. unfold upd. destruct (Nat.eqb_spec p n) as [->|]; auto. apply clients_del. }
    destruct U as (U1 & U2 & U3 & U4 & U5). cbn zeta. repeat split; try congruence. auto.
Qed.

Lemma referenced_loose : forall s o, Loose s -> referenced s o = false -> forall sl, ptr s sl <> Some o.
Proof.
  intros s o W R sl E. destruct (w_ptr _ W _ _ E) as [_ [B1 B2]].
  assert (referenced s o = true); [|congruence].
  unfold referenced. apply existsb_exists. exists (owner sl). split; [apply in_seq; lia|].
  apply existsb_exists. exists sl. split; [|rewrite E; apply Nat.eqb_refl].
  unfold own_slots. apply in_or_app. destruct sl; cbn [owner] in *; try (left; cbn; tauto).
  right. apply in_map. apply in_seq. lia.
Qed.

Lemma loose_destroy : forall s o n, Loose s -> node_of s o = Some n -> referenced s o = false ->
  Loose (release o (fold_left unregister (dtor_slots s o) s)).
Proof.
  intros s o n W No R. pose proof (referenced_loose s o W R) as Hu. pose proof W as [W1 W2 W3 W4 W5].
  destruct (unregister_loose (dtor_slots s o) s) as (A & B & D & E & F).
  set (s1 := fold_left unregister (dtor_slots s o) s) in *.
  assert (Hp : forall sl p, ptr (release o s1) sl = Some p -> ptr s sl = Some p).
  { intros sl p. cbn. rewrite D. destruct sl; auto; cbn; destruct (_ =? o); auto; discriminate. }
  constructor.
  - intros sl p Q. apply Hp in Q. destruct (W1 _ _ Q) as [K Bd]. split.
    + cbn. rewrite B, upd_other; auto. intros ->. apply (Hu _ Q).
    + unfold bound. cbn. rewrite A. exact Bd.
  - intros p sl I. cbn in I. apply F in I. destruct (W2 _ _ I) as [K Bd]. split.
    + cbn. rewrite B. unfold upd. destruct (p =? o); auto.
    + unfold bound. cbn. rewrite A. exact Bd.
  - intros p. cbn. rewrite A, B, E. intros Hp'. destruct (W3 _ Hp') as (Q1 & Q2 & Q3). unfold upd.
    destruct (p =? o); refine (conj _ (conj _ _)); auto;
      destruct (clients (rep s1 p)) as [|x r] eqn:Ec; auto; exfalso;
      assert (I : In x (clients (rep s1 p))) by (rewrite Ec; left; auto);
      apply F in I; rewrite Q2 in I; destruct I.
  - intros t k. cbn. rewrite A, E. unfold upd. destruct (t =? o); [intros []|apply W4].
  - intros p m sl. cbn. rewrite B, D. unfold upd. destruct (Nat.eqb_spec p o) as [->|N]; [discriminate|].
    intros Q I. pose proof (W5 _ _ _ Q I) as Z.
    assert (Ho : owner sl = p).
    { destruct m; cbn in I; repeat (destruct I as [<-|I]; [reflexivity|]); destruct I. }
    rewrite Ho. apply Nat.eqb_neq in N. rewrite N. destruct sl; auto.
Qed.

(** ** Definitions *)

Lemma env_alive : forall s d k n o, Loose s -> Env s d -> d k n = Some o -> o < fresh s.
Proof.
  intros s d k n o W E Q. apply loose_alive; auto. apply E in Q. intros Z. rewrite Z in Q. destruct k; discriminate.
Qed.

Lemma owner_assigns : forall c, owner (assigns c) = owner c.
Proof. destruct c; auto. Qed.

Lemma sort_eqb_refl : forall k, sort_eqb k k = true.
Proof. destruct k; auto. Qed.

Record built s (k : sort) (nd : @node P) (ps : nat -> list (slot * option nat)) (g1 : state) : Prop := {
  b_loose : Loose g1;
  b_node : node_of g1 = upd (node_of s) (fresh s) (Some nd);
  b_kind : kd (Some nd) = sk k;
  b_fresh : fresh g1 = S (fresh s);
  b_entries : entries g1 = entries s;
  b_ptr : forall sl, owner sl <> fresh s -> ptr g1 sl = ptr s sl;
  b_ps : forall sl v, In (sl, v) (ps (fresh s)) -> owner sl = fresh s /\ ptr g1 sl = v;
  b_cli : forall p sl, In sl (clients (rep g1 p)) -> In sl (clients (rep s p)) \/ kd (node_of s p) <> sk k
}.

Lemma def_does : forall (s : @sst X V P) c op k n nd ps, Loose (graph s) -> Env (graph s) (names s) ->
  call (names s) (graph s) c = Some op -> defines c = Some (k, n) ->
  built (graph s) k nd ps (fst (gstep C (graph s) op)) ->
  let s' := sstep C s c in makes s s' k n nd ps /\ Loose (graph s') /\ Env (graph s') (names s').
Proof.
  intros s c op k n nd ps W E Hc Hd [B1 B2 B3 B4 B5 B6 B7 B8]. cbv zeta.
  set (g := graph s) in *. set (g1 := fst (gstep C g op)) in *. set (o := fresh g) in *.
  assert (Hn : names (sstep C s c) = define (names s) k n o).
  { unfold sstep. fold g. cbn [names]. rewrite Hc, Hd. auto. }
  destruct (w_new _ W o (le_n _)) as (N1 & N2 & N3).
  (* what the replacement, if any, leaves *)
  assert (K : let g2 := graph (sstep C s c) in
     Loose g2 /\ node_of g2 = node_of g1 /\ entries g2 = entries g1 /\
     forall sl, ptr g2 sl = ptr g1 sl \/ (owner sl <> o /\ ptr g2 sl = Some o /\ names s k n <> None)).
  { cbv zeta. unfold sstep, calls. fold g. cbn [graph]. rewrite Hc, Hd. cbn [fold_left].
    fold g1. destruct (replaces k) eqn:Er; [|cbn; auto 6].
    destruct (names s k n) as [old|] eqn:En; [|cbn; auto 6].
    cbn [fold_left gstep].
    pose proof (env_alive _ _ _ _ _ W E En) as Lt. pose proof (E _ _ _ En) as Ko.
    assert (T : same_type g1 old o = true).
    { apply (kd_same _ _ _ k Er); rewrite B2; [rewrite upd_other by (unfold o in *; lia); auto|].
      unfold o. rewrite upd_same. auto. }
    fold g o. rewrite T. cbn [fst].
    destruct (replace_loose old o g1) as (R1 & R2 & R3 & R4 & R5).
    refine (conj (loose_replace _ _ _ B1 T) (conj R2 (conj R3 _))).
    intros sl. destruct (R4 sl) as [Q|[Q [x [I ->]]]]; auto. right. split; [|split; [auto|discriminate]].
    rewrite owner_assigns. apply B8 in I. destruct I as [I|I]; [|congruence].
    destruct (w_cli _ W _ _ I) as [_ [Q2 _]]. unfold o. fold g in Q2. lia. }
  destruct K as (K1 & K2 & K3 & K4).
  split; [|split; [exact K1|]].
  - exists o. fold g. refine (conj N1 (conj _ (conj _ (conj _ (conj _ (conj _ (conj _ (conj _ (conj _ (conj _ _)))))))))).
    + intros k' n' Q. apply (env_alive _ _ _ _ _ W E) in Q. unfold o, g in Q. lia.
    + intros sl Q. apply (w_ptr _ W) in Q. destruct Q as [Q _]. fold g in Q. rewrite N1 in Q. destruct sl; discriminate.
    + rewrite Hn. unfold define. rewrite sort_eqb_refl, Nat.eqb_refl. auto.
    + intros k' n' D. rewrite Hn. unfold define. destruct (sort_eqb k' k) eqn:Q; cbn; auto.
      destruct (Nat.eqb_spec n' n) as [->|]; auto. apply sort_eqb_spec in Q. subst. congruence.
    + rewrite K2, B2. apply upd_same.
    + intros a Ha. rewrite K2, B2. apply upd_other. auto.
    + intros sl v I. apply B7 in I. destruct I as [I1 I2]. destruct (K4 sl) as [Q|[Q _]]; [congruence|].
      exfalso. apply Q. exact I1.
    + intros sl Q. destruct (K4 sl) as [Z|[_ Z]]; [left; rewrite Z; apply B6; auto|right; auto].
    + rewrite K3, B5. exact N3.
    + intros t. rewrite K3, B5. auto.
  - intros k' n' a. rewrite Hn, K2, B2. unfold define. destruct (sort_eqb k' k && (n' =? n)) eqn:Q.
    + apply andb_true_iff in Q. destruct Q as [Q _]. apply sort_eqb_spec in Q. subst. intros Q. inversion Q; subst.
      fold o. rewrite upd_same. auto.
    + intros Q2. pose proof (env_alive _ _ _ _ _ W E Q2). rewrite upd_other by (unfold g; lia). eapply E; eauto.
Qed.

(** The states in the course of a construction. *)
Record making s (nd : @node P) (g1 : state) : Prop := {
  m_lack : lacking (fresh s) g1;
  m_node : node_of g1 = upd (node_of s) (fresh s) (Some nd);
  m_fresh : fresh g1 = S (fresh s);
  m_entries : entries g1 = entries s;
  m_ptr : forall sl, owner sl <> fresh s -> ptr g1 sl = ptr s sl;
  m_cli : forall p sl, In sl (clients (rep g1 p)) -> In sl (clients (rep s p)) \/
            (kd (node_of s p) = tk sl /\ wk sl = kd (Some nd))
}.

Lemma making_alloc : forall s nd, Loose s -> making s nd (alloc nd s).
Proof. intros s nd W. constructor; auto. apply lacking_alloc; auto. Qed.

Lemma making_register : forall s nd g1 sl p, making s nd g1 -> Loose s -> owner sl = fresh s ->
  (match sl with SEntry _ _ => False | _ => True end) ->
  kd (node_of s p) = tk sl -> wk sl = kd (Some nd) -> making s nd (register sl p g1).
Proof.
  intros s nd g1 sl p [M1 M2 M3 M4 M5 M6] W Ho He K K2. constructor; auto.
  - apply lacking_register; auto.
    + rewrite M2, upd_other; auto. intros ->. destruct (w_new _ W _ (le_n _)) as [Z _]. rewrite Z in K. destruct sl; discriminate.
    + split; [lia|]. destruct sl; auto. destruct He.
  - intros x Hx. rewrite register_ptr'; [auto|congruence].
  - intros q x I. apply clients_add in I. destruct I as [I|[-> ->]]; auto.
Qed.

Lemma built_done : forall s k nd ps g1, making s nd g1 -> kd (Some nd) = sk k ->
  (forall sl, In sl (required (fresh s) nd) -> ptr g1 sl <> None) ->
  (forall sl v, In (sl, v) (ps (fresh s)) -> owner sl = fresh s /\ ptr g1 sl = v) ->
  built s k nd ps g1.
Proof.
  intros s k nd ps g1 [M1 M2 M3 M4 M5 M6] K R Hps. constructor; auto.
  - apply (lacking_done _ (fresh s)); auto. intros n sl. rewrite M2, upd_same. intros Q. inversion Q; subst. auto.
  - intros p sl I. apply M6 in I. destruct I as [I|[I J]]; auto. right. rewrite I, <- K, <- J. apply tk_wk.
Qed.

Lemma unset_new : forall s sl, Loose s -> owner sl = fresh s -> ptr s sl = None.
Proof.
  intros s sl W Ho. destruct (ptr s sl) eqn:E; auto. apply (w_ptr _ W) in E. destruct E as [_ [E _]]. lia.
Qed.

Lemma kds : forall s d k n o, Env s d -> d k n = Some o -> kd (node_of s o) = sk k.
Proof. intros. eapply H; eauto. Qed.

Ltac pick := cbn [In]; intros sl v I;
  repeat (destruct I as [I|I]; [inversion I; subst; clear I; split;
    [reflexivity|cbn; repeat first [rewrite us_same | rewrite us_other by discriminate]; auto]|]); try destruct I.
Ltac reqd := cbn [required In]; intros sl I;
  repeat (destruct I as [<-|I]; [cbn; repeat first [rewrite us_same | rewrite us_other by discriminate]; discriminate|]); try destruct I.

Definition good (s : @sst X V P) : Prop := Loose (graph s) /\ Env (graph s) (names s).

Lemma nothing : forall (s : @sst X V P) c, good s -> call (names s) (graph s) c = None ->
  same_objects s (sstep C s c) /\ good (sstep C s c).
Proof.
  intros s c G H. unfold sstep, calls, same_objects, same_names, same_nodes, same_ptrs, same_groups, good. cbn.
  rewrite H. cbn. auto 6.
Qed.

(** A command as it is understood. *)
Definition heard (s : @sst X V P) (c : @cmd X P) : @cmd X P :=
  match c with
  | DefGrp n a e f x (Some d) => match names s TLoss d with None => DefGrp n a e f x None | Some _ => c end
  | _ => c
  end.

Lemma call_heard : forall (s : @sst X V P) c, call (names s) (graph s) (heard s c) = call (names s) (graph s) c.
Proof. intros s c. destruct c; auto. destruct d as [d|]; auto. cbn. destruct (names s TLoss d) eqn:Q; auto. cbn. now rewrite Q. Qed.
Lemma defines_heard : forall (s : @sst X V P) c, defines (heard s c) = defines c.
Proof. intros s c. destruct c; auto. destruct d as [d|]; auto. cbn. destruct (names s TLoss d); auto. Qed.
Lemma heard_known : forall (s : @sst X V P) c, ~ delay_unknown s (heard s c).
Proof.
  intros s c (n & a & e & f & x & d & Q & U). destruct c; try discriminate Q. destruct d0 as [d0|]; [|discriminate Q].
  cbn in Q. destruct (names s TLoss d0) eqn:Q2; [|discriminate]. congruence.
Qed.
Lemma heard_same : forall (s : @sst X V P) c, ~ delay_unknown s c -> heard s c = c.
Proof.
  intros s c H. destruct c; auto. destruct d as [d|]; auto. cbn. destruct (names s TLoss d) eqn:Q; auto. exfalso. apply H.
  do 6 eexists. split; [reflexivity|exact Q].
Qed.
Lemma step_heard : forall (s : @sst X V P) c, sstep C s (heard s c) = sstep C s c.
Proof. intros s c. unfold sstep, calls. rewrite call_heard, defines_heard. reflexivity. Qed.

Lemma step_defs : forall (s : @sst X V P) c k n, good s -> ~ delay_unknown s c -> defines c = Some (k, n) ->
  does s c (sstep C s c) /\ good (sstep C s c).
Proof.
  intros s c k n G Hk Hd. pose proof G as [W E]. unfold good.
  assert (NO : forall k n, In (k, n) (refers c) -> names s k n = None -> call (names s) (graph s) c = None ->
     does s c (sstep C s c) /\ Loose (graph (sstep C s c)) /\ Env (graph (sstep C s c)) (names (sstep C s c))).
  { intros k0 n0 I Q Z. destruct (nothing s c G Z) as [N1 N2]. split; [eapply does_nothing; eauto|exact N2]. }
  destruct c; cbn in Hd; try discriminate; inversion Hd; subst; clear Hd.
  - (* DefDet *)
    destruct (def_does s (DefDet n a) (NewDet a) TDet n (NDet a) (fun _ => []) W E eq_refl eq_refl) as [D1 D2].
    { apply built_done; [apply making_alloc; auto|reflexivity|reqd|pick]. }
    split; [apply does_det; exact D1|exact D2].
  - (* DefProb *)
    destruct (names s TDet mu) as [m|] eqn:E1; [|apply (NO TDet mu); cbn; auto; rewrite E1; auto].
    destruct (names s TDet sigma) as [g|] eqn:E2; [|apply (NO TDet sigma); cbn; auto; rewrite E1, E2; auto].
    pose proof (kds _ _ _ _ _ E E1) as K1. pose proof (kds _ _ _ _ _ E E2) as K2.
    destruct (def_does s (DefProb n a mu sigma) (NewProb a m g) TProb n (NProb a)
                (fun o => [(SMu o, Some m); (SSigma o, Some g)]) W E) as [D1 D2]; auto.
    { cbn. rewrite E1, E2. auto. }
    { cbn [gstep]. pose proof K1 as K1'. pose proof K2 as K2'. apply kd_is in K1'. apply kd_is in K2'. rewrite K1', K2'. cbn [andb fst].
      apply built_done; [|reflexivity|reqd|pick].
      repeat (apply making_register; auto). apply making_alloc; auto. }
    split; [eapply does_prob; eauto|exact D2].
  - (* DefIm *)
    destruct (names s TDet f) as [m|] eqn:E1; [|apply (NO TDet f); cbn; auto; rewrite E1; auto].
    pose proof (kds _ _ _ _ _ E E1) as K1.
    destruct (def_does s (DefIm n f) (NewIM m) TIm n (NIM None None) (fun o => [(SF o, Some m)]) W E) as [D1 D2]; auto.
    { cbn. rewrite E1. auto. }
    { cbn [gstep]. pose proof K1 as K1'. apply kd_is in K1'. rewrite K1'. cbn [andb fst].
      apply built_done; [|reflexivity|reqd|pick].
      repeat (apply making_register; auto). apply making_alloc; auto. }
    split; [eapply does_im; eauto|exact D2].
  - (* DefEdp *)
    destruct (names s TIm i) as [m|] eqn:E1; [|apply (NO TIm i); cbn; auto; rewrite E1; auto].
    destruct (names s TProb f) as [g|] eqn:E2; [|apply (NO TProb f); cbn; auto; rewrite E1, E2; auto].
    pose proof (kds _ _ _ _ _ E E1) as K1. pose proof (kds _ _ _ _ _ E E2) as K2.
    destruct (def_does s (DefEdp n i f) (NewEdp m g) TEdp n NEdp
                (fun o => [(SBase o, Some m); (SDep o, Some g)]) W E) as [D1 D2]; auto.
    { cbn. rewrite E1, E2. auto. }
    { cbn [gstep]. pose proof K1 as K1'. pose proof K2 as K2'. apply kd_is in K1'. apply kd_is in K2'. rewrite K1', K2'. cbn [andb fst].
      apply built_done; [|reflexivity|reqd|pick].
      repeat (apply making_register; auto). apply making_alloc; auto. }
    split; [eapply does_edp; eauto|exact D2].
  - (* DefCompound *)
    destruct (names s TIm i) as [m|] eqn:E1; [|apply (NO TIm i); cbn; auto; rewrite E1; auto].
    destruct (names s TEdp x) as [ex|] eqn:E2; [|apply (NO TEdp x); cbn; auto; rewrite E1, E2; auto].
    destruct (names s TEdp y) as [ey|] eqn:E3; [|apply (NO TEdp y); cbn; auto; rewrite E1, E2, E3; auto].
    pose proof (kds _ _ _ _ _ E E1) as K1. pose proof (kds _ _ _ _ _ E E2) as K2. pose proof (kds _ _ _ _ _ E E3) as K3.
    assert (Fn : forall e, kd (node_of (graph s) e) = sk TEdp -> exists f, ptr (graph s) (SDep e) = Some f /\ kd (node_of (graph s) f) = 2).
    { intros e Ke. destruct (ptr (graph s) (SDep e)) as [f|] eqn:Ef.
      - exists f. split; auto. apply (w_ptr _ W) in Ef. apply Ef.
      - exfalso. destruct (node_of (graph s) e) as [[]|] eqn:En; try discriminate; revert Ef;
          (eapply (w_whole _ W); [exact En|cbn; auto]). }
    destruct (Fn _ K2) as (f1 & F1 & G1). destruct (Fn _ K3) as (f2 & F2 & G2).
    destruct (def_does s (DefCompound n i x y) (NewCompound m f1 f2) TEdp n NCompound
                (fun o => [(SBase o, Some m); (SDep o, Some f1); (SSecond o, Some f2)]) W E) as [D1 D2]; auto.
    { cbn. rewrite E1, E2, E3, F1, F2. auto. }
    { cbn [gstep]. pose proof K1 as K1'. pose proof G1 as G1'. pose proof G2 as G2'.
      apply kd_is in K1'. apply kd_is in G1'. apply kd_is in G2'. rewrite K1', G1', G2'. cbn [andb fst].
      apply built_done; [|reflexivity|reqd|pick].
      repeat (apply making_register; auto). apply making_alloc; auto. }
    split; [eapply does_compound; eauto|exact D2].
  - (* DefFrag *)
    destruct (def_does s (DefFrag n a) (NewFrag a) TFrag n (NFrag a) (fun _ => []) W E eq_refl eq_refl) as [D1 D2].
    { apply built_done; [apply making_alloc; auto|reflexivity|reqd|pick]. }
    split; [apply does_frag; exact D1|exact D2].
  - (* DefLoss *)
    destruct (def_does s (DefLoss n a) (NewLoss a) TLoss n (NLoss a) (fun _ => []) W E eq_refl eq_refl) as [D1 D2].
    { apply built_done; [apply making_alloc; auto|reflexivity|reqd|pick]. }
    split; [apply does_loss; exact D1|exact D2].
  - (* DefGrp *)
    destruct c as [c|].
    2:{ destruct (nothing s (DefGrp n a e f None d) G) as [N1 N2].
        - cbn. destruct (names s TEdp e), (names s TFrag f); auto.
        - split; [apply does_refuse; exact N1|exact N2]. }
    destruct (names s TEdp e) as [oe|] eqn:E1; [|apply (NO TEdp e); cbn; auto; rewrite E1; auto].
    destruct (names s TFrag f) as [og|] eqn:E2; [|apply (NO TFrag f); cbn; auto; rewrite E1, E2; auto].
    destruct (names s TLoss c) as [oc|] eqn:E3; [|apply (NO TLoss c); cbn; auto; rewrite E1, E2, E3; auto].
    pose proof (kds _ _ _ _ _ E E1) as K1. pose proof (kds _ _ _ _ _ E E2) as K2. pose proof (kds _ _ _ _ _ E E3) as K3.
    pose proof K1 as K1'. pose proof K2 as K2'. pose proof K3 as K3'.
    apply kd_is in K1'. apply kd_is in K2'. apply kd_is in K3'.
    destruct d as [d|].
    + destruct (names s TLoss d) as [od|] eqn:E4; [|exfalso; apply Hk; do 6 eexists; split; [reflexivity|exact E4]].
      pose proof (kds _ _ _ _ _ E E4) as K4. pose proof K4 as K4'. apply kd_is in K4'.
      destruct (def_does s (DefGrp n a e f (Some c) (Some d)) (NewGrp a oe og (Some oc) (Some od)) TGrp n (NGrp a)
         (fun o => [(SEdp o, Some oe); (SFrag o, Some og); (SCost o, Some oc); (SDelay o, Some od)]) W E) as [D1 D2]; auto.
      { cbn. rewrite E1, E2, E3, E4. auto. }
      { cbn [gstep opt_loss]. rewrite K1', K2', K3', K4'. cbn [andb fst].
        apply built_done; [|reflexivity|reqd|pick].
        repeat (apply making_register; auto). apply making_alloc; auto. }
      split; [eapply does_grp2; eauto|exact D2].
    + destruct (def_does s (DefGrp n a e f (Some c) None) (NewGrp a oe og (Some oc) None) TGrp n (NGrp a)
         (fun o => [(SEdp o, Some oe); (SFrag o, Some og); (SCost o, Some oc); (SDelay o, None)]) W E) as [D1 D2]; auto.
      { cbn. rewrite E1, E2, E3. auto. }
      { cbn [gstep opt_loss]. rewrite K1', K2', K3'. cbn [andb fst].
        apply built_done; [|reflexivity|reqd|pick].
        2:{ apply unset_new; auto. }
        repeat (apply making_register; auto). apply making_alloc; auto. }
      split; [eapply does_grp; eauto|exact D2].
  - (* DefStr *)
    destruct (def_does s (DefStr n) NewStr TStr n (NStr None None) (fun o => [(SIm o, None)]) W E eq_refl eq_refl) as [D1 D2].
    { apply built_done; [apply making_alloc; auto|reflexivity|reqd|pick]. apply unset_new; auto. }
    split; [apply does_str; exact D1|exact D2].
Qed.

(** ** Other commands *)

Lemma core_objects : forall (s s' : @sst X V P), core (graph s) (graph s') -> names s' = names s -> same_objects s s'.
Proof.
  intros s s' [F N R Q I E] Hn. unfold same_objects, same_names, same_nodes, same_ptrs, same_groups, groups.
  rewrite Hn, N, Q, E. auto.
Qed.

Lemma step_graph : forall (s : @sst X V P) c op, call (names s) (graph s) c = Some op -> defines c = None ->
  graph (sstep C s c) = fst (gstep C (graph s) op) /\ names (sstep C s c) = names s.
Proof. intros s c op Hc Hd. unfold sstep, calls. cbn. rewrite Hc, Hd. auto. Qed.

Lemma env_kinds : forall s s' d, Env s d -> (forall a, kd (node_of s' a) = kd (node_of s a)) -> Env s' d.
Proof. intros s s' d E K k n o Q. rewrite K. eapply E; eauto. Qed.

Lemma loose_node : forall s o n n', Loose s -> node_of s o = Some n -> kd (Some n') = kd (Some n) ->
  required o n' = required o n ->
  Loose (set_node_of (upd (node_of s) o (Some n')) s).
Proof.
  intros s o n n' W E K R. pose proof W as [W1 W2 W3 W4 W5].
  assert (Kd : forall a, kd (upd (node_of s) o (Some n') a) = kd (node_of s a)).
  { intros a. unfold upd. destruct (Nat.eqb_spec a o) as [->|]; [congruence|auto]. }
  constructor; cbn; auto.
  - intros sl p Q. rewrite Kd. apply (W1 _ _ Q).
  - intros p sl I. destruct (W2 _ _ I) as [[Q|Q] B]; (split; [|exact B]).
    + left. unfold upd. destruct (Nat.eqb_spec p o) as [->|]; [congruence|auto].
    + right. rewrite Kd. auto.
  - intros p Hp. destruct (W3 _ Hp) as (A & B & D). refine (conj _ (conj B D)). unfold upd.
    destruct (Nat.eqb_spec p o) as [->|]; [congruence|auto].
  - intros p m sl. cbn. unfold upd. destruct (Nat.eqb_spec p o) as [->|].
    + intros Q. inversion Q; subst. rewrite R. apply W5; auto.
    + apply W5.
Qed.

Lemma alter_does : forall (s : @sst X V P) c op o nd nd', good s ->
  call (names s) (graph s) c = Some op -> defines c = None ->
  node_of (graph s) o = Some nd -> kd (Some nd') = kd (Some nd) -> required o nd' = required o nd ->
  (exists g1, core (set_node_of (upd (node_of (graph s)) o (Some nd')) (graph s)) g1 /\
              core g1 (fst (gstep C (graph s) op))) ->
  alters s (sstep C s c) o nd nd' /\ good (sstep C s c).
Proof.
  intros s c op o nd nd' [W E] Hc Hd Hn Hk Hr (g1 & C1 & C2).
  destruct (step_graph s c op Hc Hd) as [S1 S2]. pose proof (core_trans _ _ _ C1 C2) as Co.
  rewrite <- S1 in Co. pose proof Co as [F N R Q I En]. split.
  - unfold alters, same_names, same_ptrs, same_groups, groups. rewrite S2, N, Q, En. cbn.
    refine (conj _ (conj _ (conj _ (conj Hn (conj _ _))))); auto.
    + apply upd_same.
    + intros a Ha. apply upd_other; auto.
  - split.
    + eapply loose_core; [exact Co|]. apply loose_node with (n := nd); auto.
    + rewrite S2. eapply env_kinds; [exact E|]. intros a. rewrite N. cbn. unfold upd.
      destruct (Nat.eqb_spec a o) as [->|]; [congruence|auto].
Qed.

Lemma node_im : forall s o, kd (node_of s o) = 3 -> exists c d, node_of s o = Some (NIM c d).
Proof. intros s o. destruct (node_of s o) as [[]|]; cbn; try discriminate. eauto. Qed.
Lemma node_str : forall s o, kd (node_of s o) = 8 -> exists c d, node_of s o = Some (NStr c d).
Proof. intros s o. destruct (node_of s o) as [[]|]; cbn; try discriminate. eauto. Qed.

Lemma taken_drop : forall (p : nat -> option nat) g l, taken g (map p l) (map p (drop_first p g l)).
Proof.
  intros p g l. induction l as [|k r IH]; cbn; [constructor|].
  destruct (p k) as [x|] eqn:E.
  - destruct (Nat.eqb_spec x g) as [->|N]; [constructor|]. cbn. rewrite E. constructor; [congruence|auto].
  - cbn. rewrite E. constructor; [discriminate|auto].
Qed.

Lemma step_others : forall (s : @sst X V P) c, good s -> defines c = None -> tidy_cmd s c ->
  does s c (sstep C s c) /\ good (sstep C s c).
Proof.
  intros s c G Hd Ht. pose proof G as [W E].
  assert (NO : forall k n, In (k, n) (refers c) -> names s k n = None -> call (names s) (graph s) c = None ->
     does s c (sstep C s c) /\ good (sstep C s c)).
  { intros k0 n0 I Q Z. destruct (nothing s c G Z) as [N1 N2]. split; [eapply does_nothing; eauto|exact N2]. }
  destruct c; cbn in Hd; try discriminate; clear Hd.
  - (* AddTo *)
    destruct (names s TStr t) as [ot|] eqn:E1; [|apply (NO TStr t); cbn; auto; rewrite E1; auto].
    destruct (names s TGrp g) as [og|] eqn:E2; [|apply (NO TGrp g); cbn; auto; rewrite E1, E2; auto].
    pose proof (kds _ _ _ _ _ E E1) as K1. pose proof (kds _ _ _ _ _ E E2) as K2. pose proof K1 as K1'. pose proof K2 as K2'.
    apply kd_is in K1'. apply kd_is in K2'.
    destruct (step_graph s (AddTo t g) (AddGrp ot og)) as [S1 S2]; [cbn; rewrite E1, E2; auto|auto|].
    cbn [gstep] in S1. rewrite K1', K2' in S1. cbn [andb] in S1.
    assert (M : exists i, measured s og i).
    { destruct (node_of (graph s) og) as [[]|] eqn:En; try discriminate.
      assert (P1 : ptr (graph s) (SEdp og) <> None) by (eapply (w_whole _ W); [exact En|cbn; auto]).
      destruct (ptr (graph s) (SEdp og)) as [e|] eqn:Ee; [|congruence].
      destruct (w_ptr _ W _ _ Ee) as [Ke _]. cbn in Ke.
      assert (P2 : ptr (graph s) (SBase e) <> None).
      { destruct (node_of (graph s) e) as [[]|] eqn:En2; try discriminate; (eapply (w_whole _ W); [exact En2|cbn; auto]). }
      destruct (ptr (graph s) (SBase e)) as [i|] eqn:Ei; [|congruence]. exists i, e. auto. }
    destruct M as [i M]. assert (Mi : im_of_grp (graph s) og = Some i).
    { destruct M as (e & Q1 & Q2). unfold im_of_grp. rewrite Q1. auto. }
    assert (Ki : kd (node_of (graph s) i) = 3).
    { destruct M as (e & Q1 & Q2). apply (w_ptr _ W) in Q2. apply Q2. }
    pose proof (loose_alive _ ot W ltac:(intros Z; rewrite Z in K1; discriminate)) as Lt.
    pose proof (add_changes ot og (graph s)) as AC. cbv zeta in AC. destruct (do_add ot og (graph s)) as [g' ok] eqn:Da.
    cbn [fst snd] in AC, S1.
    destruct AC as (_ & A2 & _ & _ & A5 & A6 & A7 & A8 & A9 & _ & _ & A12).
    destruct ok.
    + destruct (A7 eq_refl) as (B1 & B2 & B3).
      assert (Gu : forall u, u <> ot -> groups (graph (sstep C s (AddTo t g))) u = groups (graph s) u).
      { intros u Nu. rewrite S1. unfold groups. rewrite A8 by auto. apply map_ext_in. intros k _.
        destruct (A5 (SEntry u k)) as [Q|[Q|[Q _]]]; [auto|discriminate|]. inversion Q; congruence. }
      assert (Gt : groups (graph (sstep C s (AddTo t g))) ot = groups (graph s) ot ++ [Some og]).
      { rewrite S1. unfold groups. rewrite B2, map_app. cbn. rewrite B1. f_equal. apply map_ext_in. intros k I.
        destruct (A5 (SEntry ot k)) as [Q|[Q|[Q _]]]; [auto|discriminate|]. inversion Q; subst.
        apply (w_ent _ W) in I. lia. }
      assert (Cd : groups (graph s) ot = [] \/ ptr (graph s) (SIm ot) = Some i).
      { unfold groups. destruct (entries (graph s) ot) as [|a r] eqn:Ee; [left; auto|right].
        rewrite <- A12, B3 by congruence. auto. }
      split.
      * apply (does_add s t g ot og i); auto.
        -- intros k n. rewrite S2. auto.
        -- intros a. rewrite S1, A2. auto.
        -- rewrite S1, B3. auto.
        -- intros sl Ho. rewrite S1. destruct (A5 sl) as [Q|[Q|[Q _]]]; auto; subst sl; cbn in Ho; congruence.
      * (* the invariant *)
        split; [|rewrite S1, S2; eapply env_kinds; [exact E|intros a; rewrite A2; auto]].
        rewrite S1. unfold do_add in Da.
        set (s1 := match entries (graph s) ot, im_of_grp (graph s) og with
             | [], Some i => register (SIm ot) i (graph s)
             | _, _ => graph s end) in *.
        assert (W1 : Loose s1 /\ fresh s1 = fresh (graph s) /\ node_of s1 = node_of (graph s)).
        { unfold s1. rewrite Mi. destruct (entries (graph s) ot); [|auto]. split; [|auto].
          apply loose_register; auto. split; [exact Lt|exact I]. }
        destruct W1 as (W1 & F1 & N1).
        destruct (opt_eqb (im_of_grp s1 og) (ptr s1 (SIm ot))); [|discriminate].
        inversion Da; subst g'. clear Da.
        eapply loose_core; [apply core_wipe|].
        assert (W2 : Loose (register (SEntry ot (fresh s1)) og (set_fresh (S (fresh s1)) s1))).
        { apply loose_register.
          - apply loose_fresh; auto.
          - cbn [set_fresh node_of]. rewrite N1. exact K2.
          - split; cbn; lia. }
        set (s2 := register (SEntry ot (fresh s1)) og (set_fresh (S (fresh s1)) s1)) in *.
        destruct W2 as [V1 V2 V3 V4 V5]. constructor; cbn; auto.
        -- intros o Ho. destruct (V3 o Ho) as (Q1 & Q2 & Q3). refine (conj Q1 (conj Q2 _)).
           unfold upd. destruct (Nat.eqb_spec o ot) as [->|]; auto. unfold s2 in Ho. cbn in Ho. lia.
        -- intros u k. unfold upd. destruct (u =? ot); [|intros I; apply V4 in I; exact I].
           intros I. apply in_app_or in I. destruct I as [I|[<-|[]]]; [apply V4 in I; exact I|].
           unfold s2. cbn. lia.
    + assert (Gs : g' = graph s) by (apply A6; [auto|congruence]). rewrite Gs in S1. clear Gs. split.
      * apply (does_reject s t g ot og i); auto.
        -- intros Q. unfold groups in Q. unfold do_add in Da. rewrite Mi in Da.
           destruct (entries (graph s) ot); [|discriminate].
           revert Da. unfold register, im_of_grp. cbn. rewrite us_same.
           destruct M as (e & M1 & M2). try rewrite us_other by discriminate. rewrite M1. try rewrite us_other by discriminate. rewrite M2.
           cbn. rewrite Nat.eqb_refl. discriminate.
        -- intros Q. unfold do_add in Da. rewrite Mi in Da. destruct (entries (graph s) ot) eqn:Ee.
           ++ revert Da. unfold register, im_of_grp. cbn. rewrite us_same.
              destruct M as (e & M1 & M2). try rewrite us_other by discriminate. rewrite M1. try rewrite us_other by discriminate. rewrite M2.
              cbn. rewrite Nat.eqb_refl. discriminate.
           ++ rewrite Mi, Q in Da. cbn in Da. rewrite Nat.eqb_refl in Da. discriminate.
        -- apply core_objects; [rewrite S1; apply core_refl|auto].
      * split; [rewrite S1; exact W|rewrite S1, S2; exact E].
  - (* RemoveFrom *)
    destruct (names s TStr t) as [ot|] eqn:E1; [|apply (NO TStr t); cbn; auto; rewrite E1; auto].
    destruct (names s TGrp g) as [og|] eqn:E2; [|apply (NO TGrp g); cbn; auto; rewrite E1, E2; auto].
    pose proof (kds _ _ _ _ _ E E1) as K1. pose proof (kds _ _ _ _ _ E E2) as K2. pose proof K1 as K1'. pose proof K2 as K2'.
    apply kd_is in K1'. apply kd_is in K2'.
    destruct (step_graph s (RemoveFrom t g) (RemoveGrp ot og)) as [S1 S2]; [cbn; rewrite E1, E2; auto|auto|].
    cbn [gstep] in S1. rewrite K1', K2' in S1. cbn [andb fst] in S1. split.
    + apply (does_remove s t g ot og); auto; try (intros a; rewrite S1; reflexivity).
      * intros k n. rewrite S2. auto.
      * rewrite S1. unfold groups. cbn. rewrite upd_same. apply taken_drop.
      * intros u Nu. rewrite S1. unfold groups. cbn. rewrite upd_other; auto.
    + split; [|rewrite S1, S2; exact E]. rewrite S1. destruct W as [W1 W2 W3 W4 W5]. constructor; cbn; auto.
      * intros o Ho. destruct (W3 _ Ho) as (Q1 & Q2 & Q3). refine (conj Q1 (conj Q2 _)). unfold upd.
        destruct (Nat.eqb_spec o ot) as [->|]; auto. rewrite Q3. auto.
      * intros u k. unfold upd. destruct (u =? ot); [|apply W4]. intros I. apply drop_first_in in I. eapply W4; eauto.
  - (* SetColl *)
    destruct (names s TIm i) as [oi|] eqn:E1; [|apply (NO TIm i); cbn; auto; rewrite E1; auto].
    pose proof (kds _ _ _ _ _ E E1) as K1. destruct (node_im _ _ K1) as (c0 & d0 & Hn).
    destruct (alter_does s (SetColl i c) (SetCollapse oi c) oi (NIM c0 d0) (NIM c d0)) as [D1 D2]; auto.
    { cbn. rewrite E1. auto. }
    { cbn [gstep]. rewrite Hn. cbn [fst]. eexists. split; [|apply core_notify]. constructor; auto. }
    split; [eapply does_coll; eauto|exact D2].
  - (* SetDemo *)
    destruct (names s TIm i) as [oi|] eqn:E1; [|apply (NO TIm i); cbn; auto; rewrite E1; auto].
    pose proof (kds _ _ _ _ _ E E1) as K1. destruct (node_im _ _ K1) as (c0 & d0 & Hn).
    destruct (alter_does s (SetDemo i c) (SetDemolition oi c) oi (NIM c0 d0) (NIM c0 c)) as [D1 D2]; auto.
    { cbn. rewrite E1. auto. }
    { cbn [gstep]. rewrite Hn. cbn [fst]. eexists. split; [|apply core_notify]. constructor; auto. }
    split; [eapply does_demo; eauto|exact D2].
  - (* Rebuild *)
    destruct (names s TStr t) as [ot|] eqn:E1; [|apply (NO TStr t); cbn; auto; rewrite E1; auto].
    pose proof (kds _ _ _ _ _ E E1) as K1. destruct (node_str _ _ K1) as (c0 & d0 & Hn).
    destruct (alter_does s (Rebuild t c) (SetRebuild ot c) ot (NStr c0 d0) (NStr (Some c) d0)) as [D1 D2]; auto.
    { cbn. rewrite E1. auto. }
    { cbn [gstep]. rewrite Hn. cbn [fst]. eexists. split; [|apply core_refl]. constructor; auto. }
    split; [eapply does_rebuild; eauto|exact D2].
  - (* DemolitionCost *)
    destruct (names s TStr t) as [ot|] eqn:E1; [|apply (NO TStr t); cbn; auto; rewrite E1; auto].
    pose proof (kds _ _ _ _ _ E E1) as K1. destruct (node_str _ _ K1) as (c0 & d0 & Hn).
    destruct (alter_does s (DemolitionCost t c) (SetDemolitionCost ot c) ot (NStr c0 d0) (NStr c0 (Some c))) as [D1 D2]; auto.
    { cbn. rewrite E1. auto. }
    { cbn [gstep]. rewrite Hn. cbn [fst]. eexists. split; [|apply core_refl]. constructor; auto. }
    split; [eapply does_demolition; eauto|exact D2].
  - (* Look *)
    destruct (step_graph s (Look q) (Query q)) as [S1 S2]; auto.
    assert (Co : core (graph s) (graph (sstep C s (Look q)))).
    { rewrite S1. cbn [gstep]. pose proof (cch_query C q (graph s)) as Q. destruct (do_query C q (graph s)) as [g' v].
      apply core_cch. exact Q. }
    split; [apply does_look, core_objects; auto|]. split; [eapply loose_core; eauto|].
    rewrite S2. eapply env_kinds; [exact E|]. intros a. rewrite (co_node _ _ Co). auto.
  - (* Collect *)
    destruct (step_graph s (Collect o) (Destroy o)) as [S1 S2]; auto. cbn [gstep] in S1.
    assert (Same : graph (sstep C s (Collect o)) = graph s -> does s (Collect o) (sstep C s (Collect o)) /\ good (sstep C s (Collect o))).
    { intros Q. split; [apply does_keep, core_objects; [rewrite Q; apply core_refl|auto]|].
      split; [rewrite Q; auto|rewrite Q, S2; auto]. }
    destruct (node_of (graph s) o) as [nd|] eqn:En; [|apply Same; exact S1].
    destruct (referenced (graph s) o) eqn:Er; [apply Same; exact S1|]. cbn [fst] in S1.
    pose proof (referenced_loose _ _ W Er) as Hu.
    pose proof (loose_destroy _ _ _ W En Er) as W'.
    destruct (unregister_loose (dtor_slots (graph s) o) (graph s)) as (A & B & D & F & _).
    set (s1 := fold_left unregister (dtor_slots (graph s) o) (graph s)) in *.
    assert (Hnode : forall a, a <> o -> node_of (graph (sstep C s (Collect o))) a = node_of (graph s) a).
    { intros a Ha. rewrite S1. cbn. rewrite B. apply upd_other; auto. }
    assert (Hptr : forall sl, owner sl <> o -> ptr (graph (sstep C s (Collect o))) sl = ptr (graph s) sl).
    { intros sl Ho. rewrite S1. cbn. rewrite D. apply Nat.eqb_neq in Ho. rewrite Ho. destruct sl; auto. }
    split.
    + apply does_free; auto.
      * intros k n. rewrite S2. auto.
      * rewrite S1. cbn. apply upd_same.
      * intros u Nu. unfold groups.
        assert (En' : entries (graph (sstep C s (Collect o))) u = entries (graph s) u).
        { rewrite S1. cbn. rewrite F. apply upd_other; auto. }
        rewrite En'. apply map_ext. intros k. apply Hptr. exact Nu.
    + split; [rewrite S1; exact W'|]. rewrite S2. intros k n a Q. rewrite Hnode; [eapply E; eauto|].
      intros ->. apply (Ht k n). exact Q.
Qed.

Lemma step_known : forall (s : @sst X V P) c, good s -> tidy_cmd s c -> ~ delay_unknown s c ->
  does s c (sstep C s c) /\ good (sstep C s c).
Proof.
  intros s c G Ht Hk. destruct (defines c) as [[k n]|] eqn:Hd; [eapply step_defs; eauto|apply step_others; auto].
Qed.

Lemma step_does : forall (s : @sst X V P) c, good s -> tidy_cmd s c ->
  does s (heard s c) (sstep C s c) /\ good (sstep C s c).
Proof.
  intros s c G Ht. rewrite <- step_heard. apply step_known; auto; [|apply heard_known].
  destruct c; auto. destruct d as [d|]; auto. cbn. destruct (names s TLoss d); exact Logic.I.
Qed.

Lemma tidy_good : forall l (s : @sst X V P), good s -> tidy_cmds C s l -> good (fold_left (sstep C) l s).
Proof.
  induction l as [|c r IH]; intros s G H; cbn in *; [auto|]. destruct H as [H1 H2].
  apply IH; auto. apply step_does; auto.
Qed.

Lemma tidy_app : forall l c (s : @sst X V P), tidy_cmds C s (l ++ [c]) -> tidy_cmds C s l /\ tidy_cmd (fold_left (sstep C) l s) c.
Proof.
  induction l as [|a r IH]; intros c s H; cbn in *; [tauto|]. destruct H as [H1 H2]. apply IH in H2. tauto.
Qed.

Lemma heard_does : forall p l c, tidy_script C p (l ++ [c]) ->
  does (script C p l) (heard (script C p l) c) (script C p (l ++ [c])).
Proof.
  intros p l c H. apply tidy_app in H. destruct H as [H1 H2].
  unfold script. rewrite fold_left_app. cbn [fold_left]. apply step_does; auto.
  apply tidy_good; auto. split; [apply loose_st0|]. intros k n o Q. discriminate.
Qed.

Lemma commands : forall p l c, tidy_script C p (l ++ [c]) -> ~ delay_unknown (script C p l) c ->
  does (script C p l) c (script C p (l ++ [c])).
Proof. intros p l c H N. pose proof (heard_does p l c H) as Q. rewrite heard_same in Q by exact N. exact Q. Qed.

Lemma delay_lost : forall p l n a e f x d, let c := DefGrp n a e f x (Some d) in
  tidy_script C p (l ++ [c]) -> names (script C p l) TLoss d = None ->
  does (script C p l) (DefGrp n a e f x None) (script C p (l ++ [c])).
Proof. intros p l n a e f x d c H N. pose proof (heard_does p l c H) as Q. cbn in Q. rewrite N in Q. exact Q. Qed.

End Proofs.

Lemma refute_delay : exists (l : list (@cmd nat nat)) c, tidy_script adding 0 (l ++ [c]) /\
  ~ does (script adding 0 l) c (script adding 0 (l ++ [c])).
Proof.
  exists [DefDet 0 1; DefProb 0 1 0 0; DefIm 0 0; DefEdp 0 0 0; DefFrag 0 1; DefLoss 0 1], (DefGrp 0 1 0 0 (Some 0) (Some 1)).
  split; [cbn; tauto|]. intros D. inversion D; subst.
  - destruct H1 as [Q _]. specialize (Q TGrp 0). vm_compute in Q. discriminate.
  - match goal with H : names _ TLoss 1 = Some _ |- _ => vm_compute in H; discriminate H end.
Qed.
