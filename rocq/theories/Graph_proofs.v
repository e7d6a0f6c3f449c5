(** Proofs about the object graph: links between objects and callbacks. *)

Require Import List Arith Bool Lia.
From Verif Require Import Replaceable Replaceable_proofs Graph Graph_spec.
Import ListNotations.

Lemma slot_eqb_spec : forall a b, slot_eqb a b = true <-> a = b.
Proof.
  destruct a, b; cbn; try (split; discriminate);
    try (rewrite Nat.eqb_eq; split; congruence).
  rewrite andb_true_iff, !Nat.eqb_eq. split; [intros [-> ->]; auto|intros Q; inversion Q; auto].
Qed.

Lemma slot_dec : forall a b : slot, {a = b} + {a <> b}.
Proof. decide equality; apply Nat.eq_dec. Qed.

Section Upd.
Context {B : Type}.
Implicit Types f : slot -> B.
Lemma us_same : forall f k v, upd_slot f k v k = v.
Proof.
  intros. unfold upd_slot. destruct (slot_eqb k k) eqn:E; auto.
  assert (slot_eqb k k = true) by (apply slot_eqb_spec; auto). congruence.
Qed.
Lemma us_other : forall f k v x, x <> k -> upd_slot f k v x = f x.
Proof.
  intros. unfold upd_slot. destruct (slot_eqb x k) eqn:E; auto.
  apply slot_eqb_spec in E. congruence.
Qed.
End Upd.

(** ** Kinds *)

Definition kd {P} (n : option (@node P)) : nat :=
  match n with
  | None => 0 | Some (NDet _) => 1 | Some (NProb _) => 2 | Some (NIM _ _) => 3
  | Some NEdp => 4 | Some NCompound => 4 | Some (NFrag _) => 5 | Some (NLoss _) => 6
  | Some (NGrp _) => 7 | Some (NStr _ _) => 8
  end.

(** Kind of the target and of the owner of a pointer. *)
Definition tk (sl : slot) : nat :=
  match sl with
  | SF _ | SMu _ | SSigma _ => 1
  | SBase _ | SIm _ => 3
  | SDep _ | SSecond _ => 2
  | SEdp _ => 4 | SFrag _ => 5 | SCost _ | SDelay _ => 6
  | SEntry _ _ => 7
  end.
Definition wk (sl : slot) : nat :=
  match sl with
  | SF _ => 3 | SMu _ | SSigma _ => 2
  | SBase _ | SDep _ | SSecond _ => 4
  | SEdp _ | SFrag _ | SCost _ | SDelay _ => 7
  | SIm _ | SEntry _ _ => 8
  end.

(** Depth a notification through a pointer needs. *)
Definition need (sl : slot) : nat :=
  match sl with
  | SF _ | SMu _ | SSigma _ => 2
  | SBase _ | SDep _ | SSecond _ => 1
  | _ => 0
  end.

Lemma need_step : forall sl sl', notifies sl = true -> tk sl' = wk sl -> need sl' < need sl.
Proof. destruct sl, sl'; cbn; intros; try discriminate; lia. Qed.

Section Proofs.

Context {X V P : Type}.
Variable C : calcs X V P.
Notation state := (@st X V P).
Implicit Types s : state.

(** ** States that differ in their caches only *)

(** Same objects; fewer remembered figures. *)
Record shr s s' : Prop := {
  shr_fresh : fresh s' = fresh s;
  shr_node : node_of s' = node_of s;
  shr_rep : rep s' = rep s;
  shr_ptr : ptr s' = ptr s;
  shr_cid : cid s' = cid s;
  shr_entries : entries s' = entries s;
  shr_settings : settings s' = settings s;
  shr_bad : bad s' = bad s;
  shr_cache : forall k v, cache s' k = Some v -> cache s k = Some v
}.

Lemma shr_refl : forall s, shr s s.
Proof. constructor; auto. Qed.

Lemma shr_trans : forall a b c, shr a b -> shr b c -> shr a c.
Proof.
  intros a b c [] []. constructor; try congruence. eauto.
Qed.

Lemma shr_wipe : forall w s, shr s (wipe w s).
Proof.
  intros. constructor; cbn; auto. intros k v. destruct (w k); [discriminate|auto].
Qed.

(** Registered pointers go to and belong to objects of the right kinds. *)
Definition typed s : Prop :=
  forall o sl, In sl (clients (rep s o)) ->
    kd (node_of s o) = tk sl /\ kd (node_of s (owner sl)) = wk sl.

Lemma kd_alive : forall s a n, kd (node_of s a) = S n -> check_alive a s = s.
Proof.
  intros. unfold check_alive. destruct (node_of s a); [auto|discriminate].
Qed.

Lemma wk_pos : forall sl, exists n, wk sl = S n.
Proof. destruct sl; cbn; eauto. Qed.

(** What a notification through a pointer clears. *)
Inductive hit (r : nat -> robj slot) : slot -> ckey X -> Prop :=
| hit_here : forall sl k, clears sl k = true -> hit r sl k
| hit_next : forall sl sl' k, notifies sl = true ->
    In sl' (clients (r (owner sl))) -> hit r sl' k -> hit r sl k.

Lemma fold_shr : forall (f : state -> slot -> state) cs s,
  (forall s' sl, shr s s' -> In sl cs -> shr s' (f s' sl)) ->
  shr s (fold_left f cs s).
Proof.
  intros f cs. induction cs as [|c r IH]; intros s H; cbn; [apply shr_refl|].
  assert (H1 : shr s (f s c)) by (apply H; [apply shr_refl|left; auto]).
  eapply shr_trans; [exact H1|]. apply IH. intros s' sl Hs I. apply H; [|right; auto].
  eapply shr_trans; eauto.
Qed.

Lemma fold_wiped : forall (f : state -> slot -> state) k cs s,
  (forall s' sl, shr s s' -> In sl cs -> shr s' (f s' sl)) ->
  forall sl, In sl cs -> (forall s', shr s s' -> cache (f s' sl) k = None) ->
  cache (fold_left f cs s) k = None.
Proof.
  intros f k cs. induction cs as [|c r IH]; intros s H sl I W; [destruct I|]. cbn.
  assert (H1 : shr s (f s c)) by (apply H; [apply shr_refl|left; auto]).
  assert (H2 : forall s' sl, shr (f s c) s' -> In sl r -> shr s' (f s' sl)).
  { intros s' sl' Hs I'. apply H; [|right; auto]. eapply shr_trans; eauto. }
  destruct I as [->|I].
  - pose proof (fold_shr f r (f s sl) H2) as H3.
    destruct (cache (fold_left f r (f s sl)) k) as [v|] eqn:E; [|auto].
    apply (shr_cache _ _ H3) in E. rewrite W in E; [discriminate|apply shr_refl].
  - eapply IH; eauto. intros s' Hs. apply W. eapply shr_trans; eauto.
Qed.

Lemma typed_shr : forall s s', shr s s' -> typed s -> typed s'.
Proof.
  intros s s' H T o sl. rewrite (shr_rep _ _ H), (shr_node _ _ H). apply T.
Qed.

Lemma touch_spec : forall n sl s, typed s -> need sl <= n ->
  kd (node_of s (owner sl)) = wk sl ->
  shr s (touch n sl s) /\ forall k, hit (rep s) sl k -> cache (touch n sl s) k = None.
Proof.
  induction n as [|n IH]; intros sl s T Hn Hk.
  - destruct (wk_pos sl) as [m Hm]. rewrite Hm in Hk. cbn [touch]. rewrite (kd_alive s (owner sl) m Hk).
    destruct (notifies sl) eqn:En; [destruct sl; cbn in *; try discriminate; lia|].
    split; [apply shr_wipe|]. intros k H. inversion H; subst; [|congruence].
    cbn. rewrite H0. auto.
  - pose proof Hk as Hk0. destruct (wk_pos sl) as [m Hm]. rewrite Hm in Hk.
    cbn [touch]. rewrite (kd_alive s (owner sl) m Hk).
    destruct (notifies sl) eqn:En.
    + set (s1 := wipe (clears sl) s).
      assert (H1 : shr s s1) by apply shr_wipe.
      change (rep s1) with (rep s).
      assert (HF : forall s' sl', shr s1 s' -> In sl' (clients (rep s (owner sl))) ->
                   shr s' (touch n sl' s') /\ forall k, hit (rep s') sl' k -> cache (touch n sl' s') k = None).
      { intros s' sl' Hs I. destruct (T _ _ I) as [T1 T2].
        apply IH.
        - eapply typed_shr; [|exact T]. eapply shr_trans; eauto.
        - rewrite Hk0 in T1. assert (need sl' < need sl) by (apply need_step; [auto|congruence]). lia.
        - rewrite (shr_node _ _ Hs). exact T2. }
      split.
      * eapply shr_trans; [exact H1|]. apply fold_shr. intros; apply HF; auto.
      * intros k H. inversion H; subst.
        -- pose proof (fold_shr (fun s sl' => touch n sl' s) (clients (rep s (owner sl))) s1) as HS.
           destruct (cache (fold_left _ _ s1) k) eqn:E; [|auto].
           apply (shr_cache _ _ (HS ltac:(intros; apply HF; auto))) in E. cbn in E. rewrite H0 in E. discriminate.
        -- eapply fold_wiped; [intros; apply HF; auto|exact H2|].
           intros s' Hs. apply HF; auto. rewrite (shr_rep _ _ Hs). exact H3.
    + split; [apply shr_wipe|]. intros k H. inversion H; subst; [|congruence].
      cbn. rewrite H0. auto.
Qed.

Lemma need_depth : forall sl, need sl <= depth.
Proof. destruct sl; cbn; unfold depth; lia. Qed.

Lemma notify_spec : forall o s, typed s ->
  shr s (notify o s) /\
  forall sl k, In sl (clients (rep s o)) -> hit (rep s) sl k -> cache (notify o s) k = None.
Proof.
  intros o s T. unfold notify.
  assert (HF : forall s' sl', shr s s' -> In sl' (clients (rep s o)) ->
     shr s' (touch depth sl' s') /\ forall k, hit (rep s') sl' k -> cache (touch depth sl' s') k = None).
  { intros s' sl' Hs I. destruct (T _ _ I) as [T1 T2]. apply touch_spec.
    - eapply typed_shr; eauto.
    - apply need_depth.
    - rewrite (shr_node _ _ Hs). exact T2. }
  split.
  - apply fold_shr. intros; apply HF; auto.
  - intros sl k I H. eapply fold_wiped; [intros; apply HF; auto|exact I|].
    intros s' Hs. apply HF; auto. rewrite (shr_rep _ _ Hs). exact H.
Qed.

(** ** Replacement *)

(** Same objects except for pointers; fewer remembered figures. *)
Record shp s s' : Prop := {
  shp_fresh : fresh s' = fresh s;
  shp_node : node_of s' = node_of s;
  shp_rep : rep s' = rep s;
  shp_cid : cid s' = cid s;
  shp_entries : entries s' = entries s;
  shp_settings : settings s' = settings s;
  shp_bad : bad s' = bad s;
  shp_cache : forall k v, cache s' k = Some v -> cache s k = Some v
}.

Lemma shp_trans : forall a b c, shp a b -> shp b c -> shp a c.
Proof. intros a b c [] []. constructor; try congruence. eauto. Qed.

Lemma shr_shp : forall a b, shr a b -> shp a b.
Proof. intros a b []. constructor; auto. Qed.

Lemma typed_shp : forall s s', shp s s' -> typed s -> typed s'.
Proof.
  intros s s' H T o sl. rewrite (shp_rep _ _ H), (shp_node _ _ H). apply T.
Qed.

Lemma replaced_spec : forall o' sl s, typed s -> kd (node_of s (owner sl)) = wk sl ->
  shp s (replaced o' s sl) /\
  ptr (replaced o' s sl) = upd_slot (ptr s) (assigns sl) (Some o') /\
  forall k, hit (rep s) sl k -> cache (replaced o' s sl) k = None.
Proof.
  intros o' sl s T Hk. destruct (wk_pos sl) as [m Hm]. rewrite Hm in Hk.
  unfold replaced. rewrite (kd_alive s (owner sl) m Hk).
  set (s1 := point (assigns sl) o' (wipe (clears sl) s)).
  assert (H1 : shp s s1).
  { constructor; cbn; auto. intros k v. destruct (clears sl k); [discriminate|auto]. }
  assert (T1 : typed s1) by (eapply typed_shp; eauto).
  destruct (notifies sl) eqn:En.
  - destruct (notify_spec (owner sl) s1 T1) as [N1 N2].
    split; [eapply shp_trans; [exact H1|apply shr_shp; auto]|].
    split; [rewrite (shr_ptr _ _ N1); reflexivity|].
    intros k H. inversion H; subst.
    + destruct (cache (notify (owner sl) s1) k) eqn:E; [|auto].
      apply (shr_cache _ _ N1) in E. cbn in E. rewrite H0 in E. discriminate.
    + eapply N2; [exact H2|exact H3].
  - split; [exact H1|]. split; [reflexivity|].
    intros k H. inversion H; subst; [|congruence]. cbn. rewrite H0. auto.
Qed.

Lemma fold_replaced : forall o' cs s, typed s ->
  (forall sl, In sl cs -> kd (node_of s (owner sl)) = wk sl) ->
  let s' := fold_left (replaced o') cs s in
  shp s s' /\
  (forall sl, ptr s' sl = if existsb (fun c => slot_eqb sl (assigns c)) cs then Some o' else ptr s sl) /\
  (forall sl k, In sl cs -> hit (rep s) sl k -> cache s' k = None).
Proof.
  intros o' cs. induction cs as [|c r IH]; intros s T Hk; cbn [fold_left].
  - cbn. split; [constructor; auto|]. split; [auto|]. intros sl k [].
  - destruct (replaced_spec o' c s T (Hk c (or_introl eq_refl))) as (R1 & R2 & R3).
    assert (T' : typed (replaced o' s c)) by (eapply typed_shp; eauto).
    assert (Hk' : forall sl, In sl r -> kd (node_of (replaced o' s c) (owner sl)) = wk sl).
    { intros sl I. rewrite (shp_node _ _ R1). apply Hk. right; auto. }
    destruct (IH _ T' Hk') as (I1 & I2 & I3).
    cbn zeta. split; [eapply shp_trans; eauto|]. split.
    + intros sl. rewrite I2, R2. cbn [existsb]. unfold upd_slot.
      destruct (existsb _ r); [rewrite orb_true_r; auto|]. rewrite orb_false_r. auto.
    + intros sl k [->|I] H.
      * destruct (cache (fold_left (replaced o') r (replaced o' s sl)) k) as [v|] eqn:E; [|auto].
        apply (shp_cache _ _ I1) in E. rewrite (R3 _ H) in E. discriminate.
      * eapply I3; [exact I|]. rewrite (shp_rep _ _ R1). exact H.
Qed.

Definition is_im_slot (sl : slot) : bool := match sl with SIm _ => true | _ => false end.

(** ** Links *)

Definition healthy s (o : nat) : Prop :=
  forall k sl, In (k, sl) (r_cbs (rep s o)) -> k <= r_next (rep s o).

Record Lnk (past : list nat) s : Prop := {
  l_sorted : forall o, sorted (r_cbs (rep s o));
  l_fwd : forall sl o, ptr s sl = Some o -> In (cid s sl, sl) (r_cbs (rep s o));
  l_bwd : forall o k sl, In (k, sl) (r_cbs (rep s o)) ->
            ptr s sl = Some o /\ (is_im_slot sl = false -> k = cid s sl);
  l_typed : forall sl o, ptr s sl = Some o ->
            kd (node_of s o) = tk sl /\ kd (node_of s (owner sl)) = wk sl;
  l_healthy : forall o, ~ In o past -> healthy s o;
  l_alloc : forall o, fresh s <= o -> node_of s o = None /\ rep s o = new_robj;
  l_entry : forall t k, ptr s (SEntry t k) <> None -> k < fresh s;
  l_entries : forall t k, In k (entries s t) -> ptr s (SEntry t k) <> None;
  l_second : forall e, ptr s (SSecond e) <> None -> node_of s e = Some NCompound;
  l_bad : bad s = false
}.

Lemma in_clients : forall s o sl, In sl (clients (rep s o)) <-> exists k, In (k, sl) (r_cbs (rep s o)).
Proof.
  intros. unfold clients. rewrite in_map_iff. split.
  - intros [[k x] [E I]]. cbn in E; subst. eauto.
  - intros [k I]. exists (k, sl). auto.
Qed.

Lemma lnk_clients : forall past s, Lnk past s ->
  forall o sl, In sl (clients (rep s o)) <-> ptr s sl = Some o.
Proof.
  intros past s L o sl. rewrite in_clients. split.
  - intros [k I]. apply (l_bwd _ _ L) in I. tauto.
  - intros E. exists (cid s sl). apply (l_fwd _ _ L). auto.
Qed.

Lemma lnk_typed : forall past s, Lnk past s -> typed s.
Proof.
  intros past s L o sl I. apply (lnk_clients _ _ L) in I. exact (l_typed _ _ L _ _ I).
Qed.

Lemma lnk_st0 : forall p, Lnk [] (st0 p).
Proof.
  intros. constructor; cbn; auto; try discriminate; try tauto.
  - intros o _ k sl. cbn. tauto.
Qed.

Lemma lnk_shr : forall past s s', shr s s' -> Lnk past s -> Lnk past s'.
Proof.
  intros past s s' [] []. constructor; unfold healthy in *;
    rewrite ?shr_fresh0, ?shr_node0, ?shr_rep0, ?shr_ptr0, ?shr_cid0, ?shr_entries0, ?shr_bad0; auto.
Qed.

Lemma ptr_alive : forall past s sl o, Lnk past s -> ptr s sl = Some o ->
  o < fresh s /\ owner sl < fresh s.
Proof.
  intros past s sl o L E. destruct (l_typed _ _ L _ _ E) as [T1 T2].
  split.
  - destruct (Nat.lt_ge_cases o (fresh s)); auto.
    rewrite (proj1 (l_alloc _ _ L _ H)) in T1. destruct sl; discriminate.
  - destruct (Nat.lt_ge_cases (owner sl) (fresh s)); auto.
    rewrite (proj1 (l_alloc _ _ L _ H)) in T2. destruct sl; discriminate.
Qed.

(** *** Construction *)

Lemma lnk_alloc : forall past s n, Lnk past s -> Lnk past (alloc n s).
Proof.
  intros past s n L. pose proof L as [L1 L2 L3 L4 L5 L6 L7 L8 LS L9].
  constructor; cbn; auto.
  - intros sl o E. destruct (ptr_alive _ _ _ _ L E). unfold upd.
    destruct (Nat.eqb_spec o (fresh s)); [lia|]. destruct (Nat.eqb_spec (owner sl) (fresh s)); [lia|]. auto.
  - intros o Ho. unfold upd. destruct (Nat.eqb_spec o (fresh s)); [lia|]. apply L6. lia.
  - intros t k E. specialize (L7 _ _ E). lia.
  - intros e E. destruct (ptr s (SSecond e)) as [x|] eqn:Ep; [|congruence].
    destruct (ptr_alive _ _ _ _ L Ep). cbn in *. unfold upd.
    destruct (Nat.eqb_spec e (fresh s)); [lia|]. apply LS. congruence.
Qed.

Lemma lnk_fresh : forall past s n, Lnk past s -> fresh s <= n -> Lnk past (set_fresh n s).
Proof.
  intros past s n L Hn. pose proof L as [L1 L2 L3 L4 L5 L6 L7 L8 LS L9].
  constructor; cbn; auto.
  - intros o Ho. apply L6. lia.
  - intros t k E. specialize (L7 _ _ E). lia.
Qed.

(** Registration of a new pointer, or of a structure's measure again. *)
Lemma lnk_register : forall past s sl o, Lnk past s -> healthy s o ->
  (ptr s sl = None \/ (is_im_slot sl = true /\ ptr s sl = Some o)) ->
  kd (node_of s o) = tk sl -> kd (node_of s (owner sl)) = wk sl ->
  match sl with
  | SEntry _ k => k < fresh s
  | SSecond e => node_of s e = Some NCompound
  | _ => True
  end ->
  Lnk past (register sl o s).
Proof.
  intros past s sl o L Hh Hp Hk1 Hk2 He. pose proof L as [L1 L2 L3 L4 L5 L6 L7 L8 LS L9].
  assert (Ho : o < fresh s).
  { destruct (Nat.lt_ge_cases o (fresh s)); auto. rewrite (proj1 (L6 _ H)) in Hk1.
    destruct sl; discriminate. }
  unfold register, add_callbacks. cbn.
  constructor; cbn.
  - intros p. unfold upd. destruct (p =? o); [apply sorted_put|]; auto.
  - intros sl' p. unfold upd_slot. destruct (slot_eqb sl' sl) eqn:E.
    + apply slot_eqb_spec in E. subst. intros Q. inversion Q; subst. rewrite upd_same. cbn.
      apply in_put; auto.
    + intros Q. pose proof (L2 _ _ Q) as I. unfold upd. destruct (Nat.eqb_spec p o) as [->|N]; [|auto].
      cbn. apply in_put; auto. right. split; [|auto].
      specialize (Hh _ _ I). lia.
  - intros p k sl'. unfold upd. destruct (Nat.eqb_spec p o) as [->|N]; cbn.
    + intros I. apply in_put in I; auto. destruct I as [[-> ->]|[Nk I]].
      * rewrite !us_same. auto.
      * destruct (L3 _ _ _ I) as [A B]. unfold upd_slot. destruct (slot_eqb sl' sl) eqn:E.
        -- apply slot_eqb_spec in E. subst. destruct Hp as [Hp|[Hp1 Hp2]]; [congruence|].
           split; [auto|]. congruence.
        -- auto.
    + intros I. destruct (L3 _ _ _ I) as [A B]. unfold upd_slot. destruct (slot_eqb sl' sl) eqn:E; [|auto].
      apply slot_eqb_spec in E. subst. destruct Hp as [Hp|[Hp1 Hp2]]; congruence.
  - intros sl' p. unfold upd_slot. destruct (slot_eqb sl' sl) eqn:E; [|auto].
    apply slot_eqb_spec in E. subst. intros Q. inversion Q; subst. auto.
  - intros p Np k sl'. cbn. unfold upd. destruct (Nat.eqb_spec p o) as [->|N]; cbn.
    + intros I. apply in_put in I; auto. destruct I as [[-> ->]|[Nk I]]; [lia|].
      specialize (Hh _ _ I). lia.
    + apply (L5 p Np).
  - intros p Hp'. unfold upd. destruct (Nat.eqb_spec p o); [lia|]. apply L6; auto.
  - intros t k. unfold upd_slot. destruct (slot_eqb _ sl) eqn:E; [|apply L7].
    apply slot_eqb_spec in E. subst. intros _. exact He.
  - intros t k I. unfold upd_slot. destruct (slot_eqb _ sl); [discriminate|auto].
  - intros e. unfold upd_slot. destruct (slot_eqb _ sl) eqn:E; [|apply LS].
    apply slot_eqb_spec in E. subst. intros _. exact He.
  - auto.
Qed.

(** *** Replacement *)

Lemma lnk_replace : forall past s o o', Lnk past s ->
  kd (node_of s o) = kd (node_of s o') -> o <> o' ->
  (forall sl, ptr s sl <> Some o') -> (forall e, ptr s (SSecond e) <> Some o) ->
  let s' := do_replace o o' s in
  Lnk (o' :: past) s' /\
  fresh s' = fresh s /\ node_of s' = node_of s /\ cid s' = cid s /\ entries s' = entries s /\
  settings s' = settings s /\
  (forall k v, cache s' k = Some v -> cache s k = Some v) /\
  (forall sl, ptr s' sl = match ptr s sl with
                          | Some x => if x =? o then Some o' else Some x
                          | None => None
                          end) /\
  (forall sl k, ptr s sl = Some o -> hit (rep s) sl k -> cache s' k = None).
Proof.
  intros past s o o' L Hk Hne Hun Hse s'.
  pose proof (lnk_clients _ _ L) as LC.
  pose proof L as [L1 L2 L3 L4 L5 L6 L7 L8 LS L9].
  assert (Ho : kd (node_of s o) = 0 -> clients (rep s o) = []).
  { intros E. destruct (clients (rep s o)) as [|sl r] eqn:Ec; auto.
    assert (I : In sl (clients (rep s o))) by (rewrite Ec; left; auto).
    apply LC in I. destruct (L4 _ _ I) as [T _]. rewrite E in T. destruct sl; discriminate. }
  set (cs := clients (rep s o)) in *.
  set (s1 := set_rep (upd (rep s) o' (take_over (rep s o) (rep s o'))) s).
  assert (T1 : typed s1).
  { intros p sl. cbn. unfold upd. destruct (Nat.eqb_spec p o') as [->|N].
    - intros I. change (In sl cs) in I. apply LC in I. destruct (L4 _ _ I). split; congruence.
    - intros I. apply LC in I. auto. }
  assert (Hk1 : forall sl, In sl cs -> kd (node_of s1 (owner sl)) = wk sl).
  { intros sl I. apply LC in I. apply (L4 _ _ I). }
  destruct (fold_replaced o' cs s1 T1 Hk1) as (F1 & F2 & F3).
  assert (Hs' : s' = set_rep (upd (rep (fold_left (replaced o') cs s1)) o
                       (dismiss (rep (fold_left (replaced o') cs s1) o))) (fold_left (replaced o') cs s1))
    by reflexivity.
  set (s2 := fold_left (replaced o') cs s1) in *.
  assert (Hrep : forall p, rep s' p = if p =? o then dismiss (rep s o)
                                      else if p =? o' then take_over (rep s o) (rep s o') else rep s p).
  { intros p. rewrite Hs'. cbn. rewrite (shp_rep _ _ F1). unfold s1. cbn. unfold upd.
    destruct (Nat.eqb_spec p o) as [->|N]; [|auto].
    destruct (Nat.eqb_spec o o'); [congruence|auto]. }
  assert (Hptr : forall sl, ptr s' sl = match ptr s sl with
                          | Some x => if x =? o then Some o' else Some x
                          | None => None end).
  { intros sl. rewrite Hs'. cbn. rewrite F2. cbn.
    destruct (existsb (fun c => slot_eqb sl (assigns c)) cs) eqn:E.
    - apply existsb_exists in E as [c [I E]]. apply slot_eqb_spec in E.
      apply LC in I. assert (assigns c = c).
      { destruct c; try reflexivity. exfalso. eapply Hse; eauto. }
      rewrite E, H, I, Nat.eqb_refl. auto.
    - destruct (ptr s sl) as [x|] eqn:Ep; [|auto]. destruct (Nat.eqb_spec x o) as [->|N]; [|auto].
      exfalso. assert (I : In sl cs) by (apply LC; auto).
      assert (existsb (fun c => slot_eqb sl (assigns c)) cs = true); [|congruence].
      apply existsb_exists. exists sl. split; [auto|]. apply slot_eqb_spec.
      destruct sl; try reflexivity. exfalso. eapply Hse; eauto. }
  assert (Hnode : node_of s' = node_of s) by (rewrite Hs'; cbn; rewrite (shp_node _ _ F1); auto).
  assert (Hfresh : fresh s' = fresh s) by (rewrite Hs'; cbn; rewrite (shp_fresh _ _ F1); auto).
  assert (Hcid : cid s' = cid s) by (rewrite Hs'; cbn; rewrite (shp_cid _ _ F1); auto).
  assert (Hent : entries s' = entries s) by (rewrite Hs'; cbn; rewrite (shp_entries _ _ F1); auto).
  assert (Hset : settings s' = settings s) by (rewrite Hs'; cbn; rewrite (shp_settings _ _ F1); auto).
  assert (Hbad : bad s' = false) by (rewrite Hs'; cbn; rewrite (shp_bad _ _ F1); auto).
  assert (Hcache : forall k v, cache s' k = Some v -> cache s k = Some v)
    by (rewrite Hs'; cbn; apply (shp_cache _ _ F1)).
  assert (Hno : forall k sl, ~ In (k, sl) (r_cbs (rep s o'))).
  { intros k sl I. apply L3 in I. eapply Hun. apply I. }
  split; [|repeat (split; [assumption|])].
  - constructor.
    + intros p. rewrite Hrep. destruct (p =? o); [cbn; auto|]. destruct (p =? o'); cbn; auto.
    + intros sl p. rewrite Hptr, Hcid, Hrep. destruct (ptr s sl) as [x|] eqn:Ep; [|discriminate].
      destruct (Nat.eqb_spec x o) as [->|N]; intros Q; inversion Q; subst.
      * destruct (Nat.eqb_spec p o); [congruence|]. rewrite Nat.eqb_refl. cbn. auto.
      * destruct (Nat.eqb_spec p o); [congruence|]. destruct (Nat.eqb_spec p o') as [->|N'].
        -- exfalso. eapply Hun; eauto.
        -- auto.
    + intros p k sl. rewrite Hrep, Hptr, Hcid. destruct (Nat.eqb_spec p o) as [->|N]; [cbn; tauto|].
      destruct (Nat.eqb_spec p o') as [->|N']; cbn; intros I; apply L3 in I; destruct I as [-> I].
      * rewrite Nat.eqb_refl. auto.
      * destruct (Nat.eqb_spec p o); [congruence|auto].
    + intros sl p. rewrite Hptr, Hnode. destruct (ptr s sl) as [x|] eqn:Ep; [|discriminate].
      destruct (Nat.eqb_spec x o) as [->|N]; intros Q; inversion Q; subst; [|auto].
      destruct (L4 _ _ Ep). split; congruence.
    + intros p Np k sl. rewrite Hrep. cbn in Np. destruct (Nat.eqb_spec p o) as [->|N]; [cbn; tauto|].
      destruct (Nat.eqb_spec p o') as [->|N']; [tauto|]. apply L5. tauto.
    + intros p. rewrite Hfresh, Hnode. intros Hp. rewrite Hrep. destruct (L6 _ Hp) as [A B]. split; [auto|].
      destruct (Nat.eqb_spec p o) as [->|N]; [rewrite B; reflexivity|].
      destruct (Nat.eqb_spec p o') as [->|N']; [|auto].
      rewrite A in Hk. rewrite B. unfold take_over. specialize (Ho Hk). unfold cs, clients in Ho.
      apply map_eq_nil in Ho. rewrite Ho. reflexivity.
    + intros t k. rewrite Hptr, Hfresh. intros E. apply (L7 t). intros Q. rewrite Q in E. auto.
    + intros t k. rewrite Hptr, Hent. intros I. specialize (L8 _ _ I).
      destruct (ptr s (SEntry t k)); [destruct (n =? o); discriminate|auto].
    + intros e. rewrite Hptr, Hnode. intros E. apply LS. intros Q. rewrite Q in E. auto.
    + auto.
  - (* hits *)
    intros sl k Ep H. assert (I : In sl cs) by (apply LC; auto).
    rewrite Hs'. cbn. apply F3 with (sl := sl); [auto|]. unfold s1. cbn.
    (* the table of o' is not downstream of sl *)
    assert (G : forall sl k, hit (rep s) sl k -> ptr s sl <> None ->
               (kd (node_of s o') < wk sl \/ notifies sl = false) -> hit (upd (rep s) o' (take_over (rep s o) (rep s o'))) sl k).
    { clear - L Hk LC L4. intros sl k H. induction H as [sl k Hc|sl sl' k Hn I H IH]; intros Hp Ht.
      - apply hit_here; auto.
      - destruct (ptr s sl) as [x|] eqn:Ep; [|congruence]. destruct (L4 _ _ Ep) as [T1 T2].
        destruct Ht as [Ht|Ht]; [|congruence].
        apply LC in I. destruct (L4 _ _ I) as [T3 T4].
        apply hit_next with (sl' := sl').
        + auto.
        + unfold upd. destruct (Nat.eqb_spec (owner sl) o') as [E|N]; [|apply LC; auto].
          rewrite E in T2. lia.
        + apply IH; [congruence|]. destruct (notifies sl') eqn:En; [|auto]. left.
          assert (tk sl' < wk sl') by (destruct sl'; cbn in *; try discriminate; lia).
          lia. }
    apply G; [auto|congruence|]. destruct (L4 _ _ Ep) as [T5 T6].
    destruct (notifies sl) eqn:En; [|auto]. left.
    assert (tk sl < wk sl) by (destruct sl; cbn in *; try discriminate; lia).
    lia.
Qed.

End Proofs.
