(** Proofs about the object graph: every object has an answer; what each
    operation changes; the rates of measures and the annual cost of structures. *)

Require Import List Arith Bool Lia.
From Verif Require Import Replaceable Replaceable_proofs Graph Graph_spec.
From Verif Require Import Graph_proofs Graph_proofs2 Graph_proofs3.
Import ListNotations.

Section Proofs.

Context {X V P : Type}.
Variable C : calcs X V P.
Notation state := (@st X V P).
Implicit Types s : state.

(** ** What each operation changes *)

Lemma add_changes : forall t g s,
  let r := do_add t g s in
  settings (fst r) = settings s /\ node_of (fst r) = node_of s /\ bad (fst r) = bad s /\
  (forall k, cache (fst r) k = if snd r then (match k with KStr u => if u =? t then None else cache s k | _ => cache s k end) else cache s k) /\
  (forall sl, ptr (fst r) sl = ptr s sl \/ sl = SIm t \/ (sl = SEntry t (fresh s) /\ snd r = true)) /\
  (snd r = false -> im_of_grp s g <> None -> fst r = s) /\
  (snd r = true -> ptr (fst r) (SEntry t (fresh s)) = Some g /\
                   entries (fst r) t = entries s t ++ [fresh s] /\
                   ptr (fst r) (SIm t) = im_of_grp s g) /\
  (forall u, u <> t -> entries (fst r) u = entries s u) /\
  (snd r = false -> entries (fst r) = entries s) /\
  fresh s <= fresh (fst r) /\
  (snd r = true -> fresh (fst r) = S (fresh s)) /\
  (entries s t <> [] -> ptr (fst r) (SIm t) = ptr s (SIm t)).
Proof.
  intros t g s. unfold do_add.
  set (s1 := match entries s t, im_of_grp s g with
             | [], Some i => register (SIm t) i s
             | _, _ => s end).
  assert (B1 : settings s1 = settings s /\ node_of s1 = node_of s /\ cache s1 = cache s /\
     (forall sl, ptr s1 sl = ptr s sl \/ sl = SIm t) /\ entries s1 = entries s /\ fresh s1 = fresh s /\
     im_of_grp s1 g = im_of_grp s g /\ bad s1 = bad s /\ (entries s t <> [] -> s1 = s)).
  { unfold s1. destruct (entries s t); [|repeat split; auto]. destruct (im_of_grp s g) eqn:Ei; [|repeat split; auto].
    repeat split; auto. 2:{ congruence. }
    intros sl. destruct (slot_dec sl (SIm t)); [auto|left; apply register_ptr; auto]. }
  destruct B1 as (B1 & B2 & B3 & B4 & B5 & B6 & B7 & B8 & B9).
  destruct (opt_eqb (im_of_grp s1 g) (ptr s1 (SIm t))) eqn:Eo; cbn [fst snd].
  - refine (conj _ (conj _ (conj _ (conj _ (conj _ (conj _ (conj _ (conj _ (conj _ (conj _ (conj _ _))))))))))); try (intros; discriminate).
    + exact B1.
    + exact B2.
    + exact B8.
    + intros k. cbn. rewrite B3. destruct k; auto.
    + intros sl. destruct (slot_dec sl (SEntry t (fresh s1))) as [->|N].
      * right. right. rewrite B6. auto.
      * destruct (B4 sl) as [<-|]; [|auto]. left. cbn. apply us_other. auto.
    + intros _. split; [cbn; rewrite B6, us_same; auto|]. split; [cbn; rewrite upd_same, B5, B6; auto|].
      cbn. apply opt_eqb_spec in Eo. congruence.
    + intros u Hu. cbn. rewrite upd_other by auto. rewrite B5. auto.
    + cbn. lia.
    + cbn. congruence.
    + intros Hn. cbn. rewrite (B9 Hn). auto.
  - refine (conj _ (conj _ (conj _ (conj _ (conj _ (conj _ (conj _ (conj _ (conj _ (conj _ (conj _ _))))))))))); try (intros; discriminate); auto.
    + intros k. rewrite B3. auto.
    + intros sl. destruct (B4 sl); auto.
    + intros _ Hi. destruct (entries s t) as [|a r] eqn:Ee.
      * exfalso. destruct (im_of_grp s g) as [i|] eqn:Ei; [|congruence].
        assert (opt_eqb (im_of_grp s1 g) (ptr s1 (SIm t)) = true); [|congruence].
        apply opt_eqb_spec. rewrite B7. unfold s1. unfold register. cbn. rewrite us_same. auto.
      * apply B9. congruence.
    + rewrite B5. auto.
    + lia.
    + intros Hn. rewrite (B9 Hn). auto.
Qed.

Definition is_new (op : @gop X P) : bool :=
  match op with
  | NewDet _ | NewProb _ _ _ | NewIM _ | NewEdp _ _ | NewCompound _ _ _ | NewFrag _ | NewLoss _
  | NewGrp _ _ _ _ _ | NewStr => true
  | _ => false
  end.

Record changes s (op : @gop X P) s' : Prop := {
  ch_ptr : forall sl, ptr s' sl = ptr s sl \/ (owner sl = fresh s /\ is_new op = true)
    \/ (exists o o', op = Replace o o' /\ ptr s sl = Some o /\ ptr s' sl = Some o')
    \/ (exists t g, op = AddGrp t g /\ (sl = SIm t \/ sl = SEntry t (fresh s)) /\ snd (gstep C s op) = Done)
    \/ (op = Destroy (owner sl) /\ (forall sl', ptr s sl' <> Some (owner sl)) /\ node_of s' (owner sl) = None);
  ch_node : forall a, node_of s' a = node_of s a \/ (a = fresh s /\ node_of s a = None /\ is_new op = true)
    \/ (op = Destroy a /\ (forall sl', ptr s sl' <> Some a) /\ node_of s' a = None)
    \/ (exists c c' d, op = SetCollapse a c /\ node_of s a = Some (NIM c' d) /\ node_of s' a = Some (NIM c d))
    \/ (exists c d d', op = SetDemolition a d /\ node_of s a = Some (NIM c d') /\ node_of s' a = Some (NIM c d))
    \/ (exists c r d, op = SetRebuild a c /\ node_of s a = Some (NStr r d) /\ node_of s' a = Some (NStr (Some c) d))
    \/ (exists c r d, op = SetDemolitionCost a c /\ node_of s a = Some (NStr r d) /\ node_of s' a = Some (NStr r (Some c)));
  ch_cache : forall k v, cache s' k = Some v -> cache s k = Some v \/ exists q, op = Query q;
  ch_entries : forall t, entries s' t = entries s t
    \/ (exists g, op = AddGrp t g /\ snd (gstep C s op) = Done) \/ (exists g, op = RemoveGrp t g)
    \/ (op = Destroy t /\ node_of s' t = None);
  ch_settings : settings s' = settings s \/ exists p, op = SetSettings p;
  ch_fresh : fresh s <= fresh s';
  ch_dead : forall k, node_of s (kowner k) <> None -> node_of s' (kowner k) = None -> cache s' k = None;
  ch_rep : forall o o' sl k, op = Replace o o' -> ptr s sl = Some o -> ptr s' sl <> ptr s sl ->
    hit (rep s) sl k -> cache s' k = None;
  ch_set : forall i c sl k, op = SetCollapse i c \/ op = SetDemolition i c -> kd (node_of s i) = 3 ->
    ptr s sl = Some i -> hit (rep s) sl k -> cache s' k = None;
  ch_setc : forall i c, op = SetCollapse i c -> kd (node_of s i) = 3 -> cache s' (KCollapse i) = None;
  ch_setd : forall i d, op = SetDemolition i d -> kd (node_of s i) = 3 -> cache s' (KDemolition i) = None;
  ch_add : forall t g, op = AddGrp t g -> snd (gstep C s op) = Done -> cache s' (KStr t) = None
}.

(** Every measure, response function, demand parameter and group has the
    pointers its constructor made. *)
Definition required (o : nat) (n : @node P) : list slot :=
  match n with
  | NProb _ => [SMu o; SSigma o]
  | NIM _ _ => [SF o]
  | NEdp => [SBase o; SDep o]
  | NCompound => [SBase o; SDep o; SSecond o]
  | NGrp _ => [SEdp o; SFrag o]
  | _ => []
  end.
Definition Whole s : Prop := forall o n sl, node_of s o = Some n -> In sl (required o n) -> ptr s sl <> None.

Lemma whole_im_of_grp : forall past s g, Lnk past s -> Whole s -> is_grp s g = true -> im_of_grp s g <> None.
Proof.
  intros past s g L W H. unfold im_of_grp. unfold is_grp in H.
  destruct (node_of s g) as [[]|] eqn:E; try discriminate.
  pose proof (W _ _ (SEdp g) E (or_introl eq_refl)) as H1.
  destruct (ptr s (SEdp g)) as [e|] eqn:Ee; [|congruence].
  apply (l_typed _ _ L) in Ee. destruct Ee as [Ee _]. cbn in Ee.
  destruct (node_of s e) as [[]|] eqn:En; try discriminate; eapply W; eauto; cbn; auto.
Qed.

Lemma same_changes : forall s op,
  (forall i c, op = SetCollapse i c \/ op = SetDemolition i c -> kd (node_of s i) <> 3) ->
  (forall t g, op = AddGrp t g -> snd (gstep C s op) <> Done) -> changes s op s.
Proof.
  intros s op H1 H2. constructor; auto.
  - congruence.
  - congruence.
  - intros i c sl k Q K. exfalso. eapply H1; eauto.
  - intros i c Q K. exfalso. eapply H1; eauto.
  - intros i c Q K. exfalso. eapply H1; eauto.
  - intros t g Q K. exfalso. eapply H2; eauto.
Qed.

Ltac same := cbn [fst]; apply same_changes;
  [intros ii cc [Q|Q]; first [discriminate Q | inversion Q; subst;
     match goal with E : node_of _ _ = _ |- _ => rewrite E; cbn; lia end]
  |intros tt gg Q; first [discriminate Q | inversion Q; subst; cbn [gstep];
     match goal with E : _ && _ = _ |- _ => rewrite E; discriminate end]].

Lemma step_changes : forall past s op, Lnk past s -> Whole s -> careful_op s past op ->
  changes s op (fst (gstep C s op)).
Proof.
  intros past s op L W Hc.
  assert (NN : node_of s (fresh s) = None) by (apply (l_alloc _ _ L); auto).
  assert (New : forall s', is_new op = true -> cache s' = cache s -> settings s' = settings s -> fresh s' = S (fresh s) ->
     entries s' = entries s ->
     (forall sl, owner sl <> fresh s -> ptr s' sl = ptr s sl) ->
     (forall a, a <> fresh s -> node_of s' a = node_of s a) -> changes s op s').
  { intros s' H0 H1 H2 H3 H4 H5 H6. constructor.
    - intros sl. destruct (Nat.eq_dec (owner sl) (fresh s)); auto.
    - intros a. destruct (Nat.eq_dec a (fresh s)); [subst|]; auto.
    - intros k v. rewrite H1. auto.
    - intros t. rewrite H4. auto.
    - auto.
    - lia.
    - intros k Hn1 Hn2. exfalso. rewrite H6 in Hn2; [auto|congruence].
    - intros o o' sl k ->. discriminate.
    - intros i c sl k [-> | ->]; discriminate.
    - intros i c ->. discriminate.
    - intros i c ->. discriminate.
    - intros t g ->. discriminate. }
  destruct op; cbn [gstep];
    try (destruct (is_det s mu && is_det s sigma); [|same]);
    try (destruct (is_det s f); [|same]);
    try (destruct (is_im s base && is_prob s dep && is_prob s second); [|same]);
    try (destruct (is_im s base && is_prob s dep); [|same]);
    try (destruct (is_edp s e && is_frag s f && opt_loss s cost && opt_loss s delay); [|same]);
    try solve [apply New; first
      [reflexivity
      |intros sl Hn; cbn [fst]; rewrite ?register_ptr by (intros ->; apply Hn; reflexivity); reflexivity
      |intros a0 Hn; cbn; apply upd_other; auto]].
  - (* NewGrp *)
    apply New; try (destruct cost, delay; reflexivity).
    + intros sl Hn. destruct cost, delay; cbn [fst];
        rewrite ?register_ptr by (intros ->; apply Hn; reflexivity); reflexivity.
    + intros a' Hn. destruct cost, delay; cbn; apply upd_other; auto.
  - (* SetCollapse *)
    destruct (node_of s i) as [[]|] eqn:E; try solve [same]. cbn [fst].
    set (s1 := wipe _ s).
    assert (T : typed (set_node_of (upd (node_of s1) i (Some (NIM c demolition))) s1)).
    { apply (lnk_typed past). eapply lnk_node; [eapply lnk_cch; [apply shr_cch, shr_wipe|exact L]|exact E|reflexivity|discriminate]. }
    destruct (notify_spec i _ T) as [N1 N2]. constructor.
    + intros sl. rewrite (shr_ptr _ _ N1). auto.
    + intros a. rewrite (shr_node _ _ N1). cbn. unfold upd. destruct (Nat.eqb_spec a i) as [->|]; auto.
      right. right. right. left. eauto 6.
    + intros k v Q. apply (shr_cache _ _ N1) in Q. apply (shr_cache _ _ (shr_wipe _ _)) in Q. auto.
    + intros t. rewrite (shr_entries _ _ N1). auto.
    + rewrite (shr_settings _ _ N1). auto.
    + rewrite (shr_fresh _ _ N1). auto.
    + intros k Hn1 Hn2. exfalso. rewrite (shr_node _ _ N1) in Hn2. cbn in Hn2. unfold upd in Hn2.
      destruct (kowner k =? i); [discriminate|auto].
    + intros o o' sl k Q. discriminate.
    + intros j c0 sl k [Q|Q] _ Ep Hh; [|discriminate]. inversion Q; subst.
      apply (N2 sl k); [|exact Hh]. apply (lnk_clients _ _ L). auto.
    + intros j c0 Q _. inversion Q; subst. destruct (cache (notify j _) (KCollapse j)) as [w|] eqn:Ew; auto.
      exfalso. apply (shr_cache _ _ N1) in Ew. cbn in Ew. rewrite Nat.eqb_refl in Ew. discriminate.
    + intros j d Q. discriminate.
    + intros u g Q. discriminate.
  - (* SetDemolition *)
    destruct (node_of s i) as [[]|] eqn:E; try solve [same]. cbn [fst].
    set (s1 := wipe _ s).
    assert (T : typed (set_node_of (upd (node_of s1) i (Some (NIM collapse d))) s1)).
    { apply (lnk_typed past). eapply lnk_node; [eapply lnk_cch; [apply shr_cch, shr_wipe|exact L]|exact E|reflexivity|discriminate]. }
    destruct (notify_spec i _ T) as [N1 N2]. constructor.
    + intros sl. rewrite (shr_ptr _ _ N1). auto.
    + intros a. rewrite (shr_node _ _ N1). cbn. unfold upd. destruct (Nat.eqb_spec a i) as [->|]; auto.
      do 4 right. left. eauto 6.
    + intros k v Q. apply (shr_cache _ _ N1) in Q. apply (shr_cache _ _ (shr_wipe _ _)) in Q. auto.
    + intros t. rewrite (shr_entries _ _ N1). auto.
    + rewrite (shr_settings _ _ N1). auto.
    + rewrite (shr_fresh _ _ N1). auto.
    + intros k Hn1 Hn2. exfalso. rewrite (shr_node _ _ N1) in Hn2. cbn in Hn2. unfold upd in Hn2.
      destruct (kowner k =? i); [discriminate|auto].
    + intros o o' sl k Q. discriminate.
    + intros j c0 sl k [Q|Q] _ Ep Hh; [discriminate|]. inversion Q; subst.
      apply (N2 sl k); [|exact Hh]. apply (lnk_clients _ _ L). auto.
    + intros j c0 Q. discriminate.
    + intros j c0 Q _. inversion Q; subst. destruct (cache (notify j _) (KDemolition j)) as [w|] eqn:Ew; auto.
      exfalso. apply (shr_cache _ _ N1) in Ew. cbn in Ew. rewrite Nat.eqb_refl in Ew. discriminate.
    + intros u g Q. discriminate.
  - (* Replace *)
    destruct (same_type s o o') eqn:E; [|same]. cbn [fst] in *.
    cbn in Hc. destruct Hc as (H1 & H2 & H3).
    destruct (lnk_replace past s o o' L (same_type_kd _ _ _ E) H1 H2 H3)
      as (_ & R1 & R2 & R3 & R4 & R5 & R6 & R7 & R8).
    constructor; auto.
    + intros sl. rewrite R7. destruct (ptr s sl) as [x|] eqn:Ep; auto.
      destruct (Nat.eqb_spec x o) as [->|]; auto. right. right. left. eauto 6.
    + intros a. rewrite R2. auto.
    + intros t. rewrite R4. auto.
    + rewrite R1. auto.
    + intros k. rewrite R2. congruence.
    + intros a a' sl k Q Ep _ Hh. inversion Q; subst. apply (R8 sl k); auto.
    + intros i c sl k [Q|Q]; discriminate.
    + intros i c Q. discriminate.
    + intros i c Q. discriminate.
    + intros t g Q. discriminate.
  - (* Destroy *)
    destruct (node_of s o) as [n|] eqn:E; [|same].
    destruct (referenced s o) eqn:Er; [same|]. cbn [fst].
    destruct (lnk_destroy past s o n L E Hc Er) as (_ & R1 & R2 & R3 & R4 & R5 & R6).
    pose proof (referenced_false _ _ _ L Er) as Hn.
    constructor; auto.
    + intros sl. rewrite R6, R3. destruct (Nat.eqb_spec (owner sl) o) as [<-|]; auto.
      do 4 right. auto.
    + intros a. rewrite R3. destruct (Nat.eqb_spec a o) as [->|]; auto. right. right. left. auto.
    + intros k v. rewrite R5. destruct (kowner k =? o); [discriminate|auto].
    + intros t. rewrite R4, R3. destruct (Nat.eqb_spec t o) as [->|]; auto.
    + rewrite R1. auto.
    + intros k Hn1 Hn2. rewrite R3 in Hn2. rewrite R5. destruct (kowner k =? o); [auto|congruence].
    + intros a a' sl k Q. discriminate.
    + intros i c sl k [Q|Q]; discriminate.
    + intros i c Q. discriminate.
    + intros i c Q. discriminate.
    + intros t g Q. discriminate.
  - (* AddGrp *)
    destruct (is_str s t && is_grp s g) eqn:Eb; [|same].
    apply andb_true_iff in Eb. destruct Eb as [Eb1 Eb2].
    pose proof (whole_im_of_grp _ _ _ L W Eb2) as Hi.
    pose proof (add_changes t g s) as A. cbn zeta in A.
    assert (Er : gstep C s (AddGrp t g) = (fst (do_add t g s), if snd (do_add t g s) then Done else Thrown)).
    { cbn [gstep]. rewrite Eb1, Eb2. cbn [andb]. destruct (do_add t g s); auto. }
    destruct (do_add t g s) as [s' ok]. cbn [fst snd] in *.
    destruct A as (A1 & A2 & _ & A3 & A4 & A5 & A6 & A7 & A8 & A9 & _).
    destruct ok.
    + constructor; auto.
      * intros sl. destruct (A4 sl) as [|[->|[-> _]]]; auto.
        -- right. right. right. left. exists t, g. rewrite Er. auto.
        -- right. right. right. left. exists t, g. rewrite Er. auto.
      * intros a. rewrite A2. auto.
      * intros k v. rewrite A3. destruct k; auto. destruct (t0 =? t); [discriminate|auto].
      * intros u. destruct (Nat.eq_dec u t) as [->|]; auto. right. left. exists g. rewrite Er. auto.
      * intros k. rewrite A2. congruence.
      * intros a a' sl k Q. discriminate.
      * intros i c sl k [Q|Q]; discriminate.
      * intros i c Q. discriminate.
      * intros i c Q. discriminate.
      * intros u g0 Q _. inversion Q; subst. rewrite A3, Nat.eqb_refl. auto.
    + rewrite (A5 eq_refl Hi). apply same_changes; [intros ? ? [Q|Q]; discriminate|].
      intros u g0 Q. inversion Q; subst. rewrite Er. discriminate.
  - destruct (is_str s t && is_grp s g); [|same]. cbn [fst]. constructor; try discriminate; auto.
    + intros u. cbn. unfold upd. destruct (Nat.eqb_spec u t) as [->|]; auto. right. right. left. eauto.
    + intros k. cbn. congruence.
    + intros i c sl k [Q|Q]; discriminate.
  - destruct (node_of s t) as [[]|] eqn:E; try solve [same]. constructor; try discriminate; auto.
    + intros a. cbn. unfold upd. destruct (Nat.eqb_spec a t) as [->|]; auto. do 5 right. left. eauto 6.
    + intros k Hn1 Hn2. exfalso. cbn in Hn2. unfold upd in Hn2. destruct (kowner k =? t); [discriminate|auto].
    + intros i c0 sl k [Q|Q]; discriminate.
  - destruct (node_of s t) as [[]|] eqn:E; try solve [same]. constructor; try discriminate; auto.
    + intros a. cbn. unfold upd. destruct (Nat.eqb_spec a t) as [->|]; auto. do 6 right. eauto 6.
    + intros k Hn1 Hn2. exfalso. cbn in Hn2. unfold upd in Hn2. destruct (kowner k =? t); [discriminate|auto].
    + intros i c0 sl k [Q|Q]; discriminate.
  - constructor; try discriminate; auto.
    + right. eauto.
    + intros k. cbn. congruence.
    + intros i c sl k [Q|Q]; discriminate.
  - constructor; try discriminate; auto.
  - pose proof (cch_query C q s) as H. destruct (do_query C q s) as [s' v]. cbn in *.
    constructor.
    + intros. rewrite (cch_ptr _ _ H). auto.
    + intros. rewrite (cch_node _ _ H). auto.
    + intros. right. eauto.
    + intros. rewrite (cch_entries _ _ H). auto.
    + rewrite (cch_settings _ _ H). auto.
    + rewrite (cch_fresh _ _ H). auto.
    + intros k. rewrite (cch_node _ _ H). congruence.
    + discriminate.
    + intros i c sl k [Q|Q]; discriminate.
    + discriminate.
    + discriminate.
    + discriminate.
Qed.

(** ** Every object keeps its pointers *)

Lemma whole_old : forall s op s', changes s op s' -> Whole s -> forall o n sl,
  o <> fresh s -> node_of s' o = Some n -> In sl (required o n) -> ptr s' sl <> None.
Proof.
  intros s op s' Ch W o n sl Ho Hn Hs.
  assert (Hw : owner sl = o).
  { destruct n; cbn in Hs; repeat (destruct Hs as [<-|Hs]; [reflexivity|]); destruct Hs. }
  assert (Hp : ptr s sl <> None).
  { destruct (ch_node _ _ _ Ch o) as [E|[[E [_ _]]|[[E [_ E']]|[(c & c' & d & _ & E & E')|[(c & d & d' & _ & E & E')|[(c & r & d & _ & E & E')|(c & r & d & _ & E & E')]]]]]].
    - rewrite E in Hn. eapply W; eauto.
    - congruence.
    - congruence.
    - rewrite E' in Hn. inversion Hn; subst. eapply W; [exact E|]. exact Hs.
    - rewrite E' in Hn. inversion Hn; subst. eapply W; [exact E|]. exact Hs.
    - rewrite E' in Hn. inversion Hn; subst. destruct Hs.
    - rewrite E' in Hn. inversion Hn; subst. destruct Hs. }
  destruct (ch_ptr _ _ _ Ch sl) as [E|[[E _]|[(x & x' & _ & _ & E)|[(t & g & _ & E & _)|[_ [_ E]]]]]]; try congruence.
  - destruct n; cbn in Hs; repeat (destruct Hs as [<-|Hs]; [destruct E; discriminate|]); destruct Hs.
Qed.

Lemma whole_step : forall past s op, Lnk past s -> Whole s -> careful_op s past op ->
  Whole (fst (gstep C s op)).
Proof.
  intros past s op L W Hc.
  pose proof (step_changes past s op L W Hc) as Ch.
  assert (NN : node_of s (fresh s) = None) by (apply (l_alloc _ _ L); auto).
  intros o n sl Hn Hs. destruct (Nat.eq_dec o (fresh s)) as [->|No]; [|eapply whole_old; eauto].
  destruct (is_new op) eqn:Nw.
  2:{ exfalso. destruct (ch_node _ _ _ Ch (fresh s)) as [E|[[E [_ E']]|[[E [_ E']]|[(c & c' & d & _ & E & E')|[(c & d & d' & _ & E & E')|[(c & r & d & _ & E & E')|(c & r & d & _ & E & E')]]]]]]; congruence. }
  clear Ch.
  destruct op; try discriminate Nw; cbn [gstep] in *;
    try (destruct (is_det s mu && is_det s sigma); [|cbn in Hn; congruence]);
    try (destruct (is_det s f); [|cbn in Hn; congruence]);
    try (destruct (is_im s base && is_prob s dep && is_prob s second); [|cbn in Hn; congruence]);
    try (destruct (is_im s base && is_prob s dep); [|cbn in Hn; congruence]);
    try (destruct (is_edp s e && is_frag s f && opt_loss s cost && opt_loss s delay); [|cbn in Hn; congruence]).
  all: try solve [
      cbn in Hn; rewrite upd_same in Hn; inversion Hn; subst; clear Hn; cbn in Hs;
      repeat (destruct Hs as [<-|Hs]; [unfold register; cbn; unfold upd_slot; cbn; rewrite ?Nat.eqb_refl; discriminate|]); destruct Hs].
  - destruct cost, delay; cbn in Hn; rewrite upd_same in Hn; inversion Hn; subst; clear Hn; cbn in Hs;
      repeat (destruct Hs as [<-|Hs]; [unfold register; cbn; unfold upd_slot; cbn; rewrite ?Nat.eqb_refl; discriminate|]); destruct Hs.
Qed.

Lemma whole_st0 : forall p, Whole (st0 p).
Proof. intros p o n sl H. discriminate. Qed.

(** ** Histories *)

Theorem inv_from : forall h s past, careful_from C s past h -> Lnk past s -> Whole s ->
  exists past', Lnk past' (after C s h) /\ Whole (after C s h).
Proof.
  induction h as [|op r IH]; intros s past Hc L W; cbn; [eauto|].
  destruct Hc as [H1 H2]. eapply IH; [exact H2|apply lnk_step; auto|eapply whole_step; eauto].
Qed.

Lemma inv_whole : forall p h, careful C p h -> Whole (gafter C p h).
Proof.
  intros p h Hc. destruct (inv_from h (st0 p) [] Hc (lnk_st0 p) (whole_st0 p)) as [past' [_ H]]. exact H.
Qed.

(** ** Answers *)

Lemma det_there : forall past s sl, Lnk past s -> tk sl = 1 -> ptr s sl <> None ->
  exists a, det_of s (ptr s sl) = Some a.
Proof.
  intros past s sl L T H. destruct (ptr s sl) as [o|] eqn:E; [|congruence].
  destruct (l_typed _ _ L _ _ E) as [K _]. rewrite T in K. cbn.
  destruct (node_of s o) as [[]|]; try discriminate. eauto.
Qed.

Lemma prob_there : forall past s sl, Lnk past s -> Whole s -> tk sl = 2 -> ptr s sl <> None ->
  exists a, prob_of s (ptr s sl) = Some a.
Proof.
  intros past s sl L W T H. destruct (ptr s sl) as [o|] eqn:E; [|congruence].
  destruct (l_typed _ _ L _ _ E) as [K _]. rewrite T in K. unfold prob_of.
  destruct (node_of s o) as [[]|] eqn:En; try discriminate.
  destruct (det_there past s (SMu o) L eq_refl) as [m ->]; [eapply W; eauto; cbn; auto|].
  destruct (det_there past s (SSigma o) L eq_refl) as [g ->]; [eapply W; eauto; cbn; auto|]. eauto.
Qed.

Lemma im_there : forall past s i, Lnk past s -> Whole s -> kd (node_of s i) = 3 ->
  exists a, im_of s (Some i) = Some a.
Proof.
  intros past s i L W K. unfold im_of.
  destruct (node_of s i) as [[]|] eqn:En; try discriminate.
  destruct (det_there past s (SF i) L eq_refl) as [m ->]; [eapply W; eauto; cbn; auto|]. eauto.
Qed.

Lemma edp_there : forall past s e, Lnk past s -> Whole s -> kd (node_of s e) = 4 ->
  exists a, edp_of s (Some e) = Some a.
Proof.
  intros past s e L W K. unfold edp_of.
  assert (Hb : In (SBase e) (match node_of s e with Some n => required e n | None => [] end) /\
               In (SDep e) (match node_of s e with Some n => required e n | None => [] end)).
  { destruct (node_of s e) as [[]|]; try discriminate; cbn; auto. }
  destruct (node_of s e) as [n|] eqn:En; [|discriminate]. destruct Hb as [Hb Hd].
  apply (W _ _ _ En) in Hb. apply (W _ _ _ En) in Hd.
  destruct (ptr s (SBase e)) as [i|] eqn:Ei; [|congruence].
  destruct (im_there past s i L W) as [a ->]; [apply (l_typed _ _ L) in Ei; apply Ei|].
  destruct (prob_there past s (SDep e) L W eq_refl Hd) as [b ->].
  destruct n; try discriminate; eauto.
  destruct (prob_there past s (SSecond e) L W eq_refl) as [c ->]; [eapply W; eauto; cbn; auto|]. eauto.
Qed.

Lemma grp_there : forall past s g, Lnk past s -> Whole s -> kd (node_of s g) = 7 ->
  exists a, grp_of s g = Some a.
Proof.
  intros past s g L W K. unfold grp_of.
  destruct (node_of s g) as [[]|] eqn:En; try discriminate.
  pose proof (W _ _ (SEdp g) En (or_introl eq_refl)) as H1.
  pose proof (W _ _ (SFrag g) En (or_intror (or_introl eq_refl))) as H2.
  destruct (ptr s (SEdp g)) as [e|] eqn:Ee; [|congruence].
  destruct (edp_there past s e L W) as [b ->]; [apply (l_typed _ _ L) in Ee; apply Ee|].
  unfold frag_of. destruct (ptr s (SFrag g)) as [f|] eqn:Ef; [|congruence].
  destruct (l_typed _ _ L _ _ Ef) as [Kf _]. cbn in Kf.
  destruct (node_of s f) as [[]|]; try discriminate.
  destruct (loss_some _ _ (SCost g) L eq_refl) as [c ->].
  destruct (loss_some _ _ (SDelay g) L eq_refl) as [d ->]. eauto.
Qed.

Lemma str_im_there : forall past s t, Lnk past s -> Whole s -> exists d, str_im s t = Some d.
Proof.
  intros past s t L W. unfold str_im. destruct (ptr s (SIm t)) as [i|] eqn:E; eauto.
  destruct (im_there past s i L W) as [d ->]; [apply (l_typed _ _ L) in E; apply E|]. eauto.
Qed.

Lemma grps_there : forall past s t, Lnk past s -> Whole s ->
  exists gs, sequence (map (grp_entry s) (groups s t)) = Some gs.
Proof.
  intros past s t L W. unfold groups.
  assert (H : forall k, In k (entries s t) -> ptr s (SEntry t k) <> None) by apply (l_entries _ _ L).
  induction (entries s t) as [|k r IH]; cbn; [eauto|].
  destruct IH as [gs E]; [intros; apply H; right; auto|].
  pose proof (H k (or_introl eq_refl)) as Hk. destruct (ptr s (SEntry t k)) as [g|] eqn:Eg; [|congruence].
  cbn. destruct (grp_there past s g L W) as [d ->]; [apply (l_typed _ _ L) in Eg; apply Eg|].
  rewrite E. eauto.
Qed.

Lemma answer_there : forall past s q, Lnk past s -> Whole s ->
  match q with
  | QCollapse i | QDemolition i => kd (node_of s i) = 3
  | QLambda e _ => kd (node_of s e) = 4
  | QGrp g _ => kd (node_of s g) = 7
  | QAnnual t | QTotal t _ => kd (node_of s t) = 8
  end -> exists v, snd (do_query C q s) = Some v.
Proof.
  intros past s q L W K.
  assert (Z : forall r : state * V, exists v, snd (let (s', v) := r in (s', Some v)) = Some v)
    by (intros [? v]; exists v; reflexivity).
  destruct q; cbn [do_query].
  - destruct (im_there past s i L W K) as [[[f c] d] ->]. apply Z.
  - destruct (im_there past s i L W K) as [[[f c] d] ->]. apply Z.
  - destruct (edp_there past s e L W K) as [d ->]. apply Z.
  - destruct (grp_there past s g L W K) as [d ->]. apply Z.
  - destruct (node_of s t) as [[]|]; try discriminate.
    destruct (str_im_there past s t L W) as [i ->]. destruct (grps_there past s t L W) as [gs ->]. apply Z.
  - destruct (node_of s t) as [[]|]; try discriminate.
    destruct (str_im_there past s t L W) as [i ->]. destruct (grps_there past s t L W) as [gs ->]. apply Z.
Qed.



End Proofs.
