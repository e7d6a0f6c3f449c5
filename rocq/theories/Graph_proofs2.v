(** Proofs about the object graph: every careful operation keeps the links. *)

Require Import List Arith Bool Lia.
From Verif Require Import Replaceable Replaceable_proofs Graph Graph_spec Graph_proofs.
Import ListNotations.

Section Proofs.

Context {X V P : Type}.
Variable C : calcs X V P.
Notation state := (@st X V P).
Implicit Types s : state.

(** ** States that agree on everything but caches *)

Record cch s s' : Prop := {
  cch_fresh : fresh s' = fresh s;
  cch_node : node_of s' = node_of s;
  cch_rep : rep s' = rep s;
  cch_ptr : ptr s' = ptr s;
  cch_cid : cid s' = cid s;
  cch_entries : entries s' = entries s;
  cch_settings : settings s' = settings s;
  cch_bad : bad s' = bad s
}.

Lemma cch_refl : forall s, cch s s.
Proof. constructor; auto. Qed.
Lemma cch_trans : forall a b c, cch a b -> cch b c -> cch a c.
Proof. intros a b c [] []. constructor; congruence. Qed.
Lemma shr_cch : forall a b, shr a b -> cch a b.
Proof. intros a b []. constructor; auto. Qed.

Lemma lnk_cch : forall past s s', cch s s' -> Lnk past s -> Lnk past s'.
Proof.
  intros past s s' [] []. constructor; unfold healthy in *;
    rewrite ?cch_fresh0, ?cch_node0, ?cch_rep0, ?cch_ptr0, ?cch_cid0, ?cch_entries0, ?cch_bad0; auto.
Qed.

Lemma cch_cput : forall k v s, cch s (cput C k v s).
Proof. constructor; auto. Qed.

Lemma cch_cached : forall k f s, (forall s, cch s (fst (f s))) -> cch s (fst (cached C k f s)).
Proof.
  intros k f s H. unfold cached. destruct (cache s k); [apply cch_refl|].
  specialize (H s). destruct (f s) as [s' v]. cbn in *.
  eapply cch_trans; [exact H|apply cch_cput].
Qed.

Lemma cch_run : forall Q A (ask : Q -> state -> state * A) (c : comp V Q A) s,
  (forall q s, cch s (fst (ask q s))) -> cch s (fst (run ask c s)).
Proof.
  intros Q A ask c. induction c as [v|q k IH]; intros s H; cbn; [apply cch_refl|].
  pose proof (H q s) as H1. destruct (ask q s) as [s' a]. cbn in H1.
  eapply cch_trans; [exact H1|]. apply IH. exact H.
Qed.

Lemma cch_costdist : forall g d x s, cch s (fst (q_costdist C g d x s)).
Proof. intros. apply cch_cached. intros; apply cch_refl. Qed.
Lemma cch_delaydist : forall g d x s, cch s (fst (q_delaydist C g d x s)).
Proof. intros. apply cch_cached. intros; apply cch_refl. Qed.
Lemma cch_ecost : forall g d x s, cch s (fst (q_ecost C g d x s)).
Proof. intros. apply cch_cached. intros. apply cch_run. intros; apply cch_costdist. Qed.
Lemma cch_sdcost : forall g d x s, cch s (fst (q_sdcost C g d x s)).
Proof.
  intros. apply cch_cached. intros. apply cch_run.
  intros [y|y] s1; [apply cch_costdist|apply cch_ecost].
Qed.
Lemma cch_edelay : forall g d x s, cch s (fst (q_edelay C g d x s)).
Proof. intros. apply cch_cached. intros. apply cch_run. intros; apply cch_delaydist. Qed.
Lemma cch_sddelay : forall g d x s, cch s (fst (q_sddelay C g d x s)).
Proof.
  intros. apply cch_cached. intros. apply cch_run.
  intros [y|y] s1; [apply cch_delaydist|apply cch_edelay].
Qed.
Lemma cch_grp : forall g d q s, cch s (fst (q_grp C g d q s)).
Proof.
  intros g d q s. destruct q; cbn [q_grp].
  - apply cch_ecost.
  - apply cch_sdcost.
  - apply cch_edelay.
  - apply cch_sddelay.
  - apply cch_cached. intros. apply cch_run. intros; apply cch_ecost.
  - apply cch_cached. intros. apply cch_run. intros [y|y] s1; [apply cch_ecost|apply cch_sdcost].
  - apply cch_costdist.
  - apply cch_delaydist.
  - apply cch_cached. intros; apply cch_refl.
Qed.
Lemma cch_all : forall gs x s, cch s (fst (q_all C gs x s)).
Proof.
  induction gs as [|[g d] r IH]; intros x s; cbn [q_all]; [apply cch_refl|].
  pose proof (cch_ecost g d x s) as H1. destruct (q_ecost C g d x s) as [s1 e].
  pose proof (cch_sdcost g d x s1) as H2. destruct (q_sdcost C g d x s1) as [s2 sd].
  pose proof (IH x s2) as H3. destruct (q_all C r x s2) as [s3 l]. cbn in *.
  eapply cch_trans; [exact H1|]. eapply cch_trans; [exact H2|exact H3].
Qed.

Lemma cch_query : forall q s, cch s (fst (do_query C q s)).
Proof.
  intros q s.
  assert (W : forall r : state * V, cch s (fst r) ->
            cch s (fst (let (s', v) := r in (s', Some v)))) by (intros [? ?]; auto).
  destruct q; cbn [do_query].
  - destruct (im_of s (Some i)) as [[[f c] d]|]; [|apply cch_refl].
    apply W, cch_cached. intros; apply cch_refl.
  - destruct (im_of s (Some i)) as [[[f c] d]|]; [|apply cch_refl].
    apply W, cch_cached. intros; apply cch_refl.
  - destruct (edp_of s (Some e)); [|apply cch_refl].
    apply W, cch_cached. intros; apply cch_refl.
  - destruct (grp_of s g); [|apply cch_refl]. apply W, cch_grp.
  - destruct (node_of s t) as [[]|]; try apply cch_refl.
    destruct (str_im s t); [|apply cch_refl].
    destruct (sequence _); [|apply cch_refl].
    apply W, cch_cached. intros. apply cch_run. intros; apply cch_all.
  - destruct (node_of s t) as [[]|]; try apply cch_refl.
    destruct (str_im s t); [|apply cch_refl].
    destruct (sequence _); [|apply cch_refl].
    apply W, cch_run. intros; apply cch_all.
Qed.

(** ** Changing an object's own data *)

Lemma lnk_node : forall past s o n n', Lnk past s ->
  node_of s o = Some n -> kd (Some n') = kd (Some n) -> (n = NCompound -> n' = NCompound) ->
  Lnk past (set_node_of (upd (node_of s) o (Some n')) s).
Proof.
  intros past s o n n' L Ho Hk Hc. pose proof L as [L1 L2 L3 L4 L5 L6 L7 L8 LS L9].
  assert (K : forall a, kd (upd (node_of s) o (Some n') a) = kd (node_of s a)).
  { intros a. unfold upd. destruct (Nat.eqb_spec a o); [subst; congruence|auto]. }
  constructor; cbn; auto.
  - intros sl p E. rewrite !K. auto.
  - intros a Ha. specialize (L6 _ Ha). unfold upd. destruct (Nat.eqb_spec a o); [|auto].
    subst. rewrite Ho in L6. destruct L6. discriminate.
  - intros e E. specialize (LS _ E). unfold upd. destruct (Nat.eqb_spec e o) as [->|]; [|auto].
    rewrite Ho in LS. inversion LS. f_equal. apply Hc. auto.
Qed.

(** ** Destruction *)

Lemma referenced_false : forall past s o, Lnk past s -> referenced s o = false ->
  forall sl, ptr s sl <> Some o.
Proof.
  intros past s o L H sl E. destruct (ptr_alive _ _ _ _ L E) as [_ Hw].
  assert (referenced s o = true); [|congruence].
  unfold referenced. apply existsb_exists. exists (owner sl).
  split; [apply in_seq; lia|]. apply existsb_exists. exists sl.
  split; [|rewrite E; apply Nat.eqb_refl].
  unfold own_slots. destruct sl; cbn [owner]; try (cbn; tauto).
  apply in_or_app. right. apply in_map. apply in_seq.
  assert (k < fresh s) by (apply (l_entry _ _ L t); congruence). lia.
Qed.

(** What is left of the tables once some pointers are unregistered. *)
Record gone (l : list slot) s s' : Prop := {
  g_fresh : fresh s' = fresh s;
  g_node : node_of s' = node_of s;
  g_ptr : ptr s' = ptr s;
  g_cid : cid s' = cid s;
  g_entries : entries s' = entries s;
  g_settings : settings s' = settings s;
  g_bad : bad s' = bad s;
  g_cache : cache s' = cache s;
  g_next : forall o, r_next (rep s' o) = r_next (rep s o);
  g_sorted : forall o, sorted (r_cbs (rep s' o));
  g_rep : forall o k sl, In (k, sl) (r_cbs (rep s' o)) <-> In (k, sl) (r_cbs (rep s o)) /\ ~ In sl l
}.

Lemma gone_unregister : forall past s s1 l sl, Lnk past s -> gone l s s1 ->
  is_im_slot sl = false -> gone (sl :: l) s (unregister s1 sl).
Proof.
  intros past s s1 l sl L G Hi. destruct G as [G1 G2 G3 G4 G5 G6 G7 G8 G9 G10 G11].
  unfold unregister. rewrite G3.
  destruct (ptr s sl) as [x|] eqn:Ep.
  - constructor; cbn; auto.
    + intros o. unfold upd. destruct (Nat.eqb_spec o x); [subst; cbn|]; auto.
    + intros o. unfold upd. destruct (o =? x); [cbn; apply sorted_del|]; auto.
    + intros o k sl'. unfold upd. destruct (Nat.eqb_spec o x) as [->|N]; cbn.
      * rewrite in_del by auto. rewrite G11, G4. split.
        -- intros [Nk [I J]]. split; [auto|]. intros [->|K]; [|tauto].
           apply Nk. apply (l_bwd _ _ L _ _ _ I). auto.
        -- intros [I J]. split; [|split; [auto|tauto]].
           intros ->. apply J. left.
           pose proof (l_fwd _ _ L _ _ Ep) as I'.
           eapply sorted_key; [apply (l_sorted _ _ L x)|exact I'|exact I].
      * rewrite G11. split; [|tauto]. intros [I J]. split; [auto|]. intros [->|K]; [|tauto].
        apply (l_bwd _ _ L) in I. destruct I. congruence.
  - constructor; auto. intros o k sl'. rewrite G11. split; [|cbn; tauto].
    intros [I J]. split; [auto|]. intros [->|K]; [|tauto].
    apply (l_bwd _ _ L) in I. destruct I. congruence.
Qed.

Lemma gone_fold : forall past s l l0 s1, Lnk past s -> gone l0 s s1 ->
  (forall sl, In sl l -> is_im_slot sl = false) ->
  exists l', gone l' s (fold_left unregister l s1) /\ forall sl, In sl l' <-> In sl l \/ In sl l0.
Proof.
  intros past s l. induction l as [|a r IH]; intros l0 s1 L G H; cbn [fold_left].
  - exists l0. split; [auto|]. cbn. tauto.
  - destruct (IH (a :: l0) (unregister s1 a) L) as [l' [G' E]].
    + eapply gone_unregister; eauto. apply H. left; auto.
    + intros sl I. apply H. right; auto.
    + exists l'. split; [auto|]. intros sl. rewrite E. cbn. tauto.
Qed.

Lemma gone_refl : forall past s, Lnk past s -> gone [] s s.
Proof.
  intros past s L. constructor; auto; try apply (l_sorted _ _ L).
  intros. cbn. tauto.
Qed.

Lemma dtor_slots_spec : forall past s o n, Lnk past s -> node_of s o = Some n ->
  is_str s o = false ->
  (forall sl, In sl (dtor_slots s o) -> is_im_slot sl = false /\ owner sl = o) /\
  (forall sl, owner sl = o -> ptr s sl <> None -> In sl (dtor_slots s o)).
Proof.
  intros past s o n L Ho Hs. unfold dtor_slots, is_str in *. rewrite Ho in *. split.
  - intros sl. destruct n; cbn; intros H; repeat (destruct H as [<-|H]; [auto|]); tauto.
  - intros sl <- Hp. destruct (ptr s sl) as [x|] eqn:Ep; [|congruence].
    destruct (l_typed _ _ L _ _ Ep) as [_ T]. rewrite Ho in T.
    destruct n; try discriminate; destruct sl; cbn in T; try discriminate T; cbn [owner]; cbn; auto 6.
    exfalso. assert (Q : node_of s e = Some NCompound) by (apply (l_second _ _ L); congruence).
    cbn in Ho. congruence.
Qed.

Lemma lnk_destroy : forall past s o n, Lnk past s -> node_of s o = Some n ->
  is_str s o = false -> referenced s o = false ->
  let s' := release o (fold_left unregister (dtor_slots s o) s) in
  Lnk past s' /\
  fresh s' = fresh s /\ settings s' = settings s /\
  (forall a, node_of s' a = if a =? o then None else node_of s a) /\
  (forall t, entries s' t = if t =? o then [] else entries s t) /\
  (forall k, cache s' k = if kowner k =? o then None else cache s k) /\
  (forall sl, ptr s' sl = if owner sl =? o then None else ptr s sl).
Proof.
  intros past s o n L Ho Hs Hr s'.
  destruct (dtor_slots_spec _ _ _ _ L Ho Hs) as [D1 D2].
  destruct (gone_fold past s (dtor_slots s o) [] s L (gone_refl _ _ L)) as [l' [G E]].
  { intros sl I. apply (D1 _ I). }
  pose proof (referenced_false _ _ _ L Hr) as Hn.
  set (s1 := fold_left unregister (dtor_slots s o) s) in *.
  destruct G as [G1 G2 G3 G4 G5 G6 G7 G8 G9 G10 G11].
  assert (Hptr : forall sl, ptr s' sl = if owner sl =? o then None else ptr s sl).
  { intros sl. unfold s', release. cbn. rewrite G3.
    destruct sl; auto. cbn [owner]. destruct (Nat.eqb_spec t o) as [->|]; auto.
    destruct (ptr s (SEntry o k)) as [x|] eqn:Ep; [|auto].
    destruct (l_typed _ _ L _ _ Ep) as [_ T]. cbn in T. unfold is_str in Hs.
    destruct (node_of s o) as [[]|]; discriminate. }
  assert (Hnode : forall a, node_of s' a = if a =? o then None else node_of s a).
  { intros a. unfold s', release. cbn. rewrite G2. unfold upd. auto. }
  assert (Hrep : rep s' = rep s1) by reflexivity.
  assert (Hent : forall t, entries s' t = if t =? o then [] else entries s t).
  { intros t. unfold s', release. cbn. rewrite G5. unfold upd. auto. }
  assert (Hfresh : fresh s' = fresh s) by (unfold s', release; cbn; rewrite G1; auto).
  assert (Hcid : cid s' = cid s) by (unfold s', release; cbn; rewrite G4; auto).
  pose proof L as [L1 L2 L3 L4 L5 L6 L7 L8 LS L9].
  split; [|split; [auto|split; [|split; [exact Hnode|split; [exact Hent|split; [|exact Hptr]]]]]].
  2:{ unfold s', release; cbn; rewrite G6; auto. }
  2:{ intros k. unfold s', release. cbn. rewrite G8. auto. }
  constructor.
  - rewrite Hrep. auto.
  - intros sl p. rewrite Hptr, Hrep, Hcid. destruct (Nat.eqb_spec (owner sl) o) as [|N]; [discriminate|].
    intros Ep. apply G11. split; [auto|]. rewrite E. intros [I | [] ]. apply D1 in I. tauto.
  - intros p k sl. rewrite Hrep, Hptr, Hcid. rewrite G11. intros [I J].
    destruct (L3 _ _ _ I) as [A B]. destruct (Nat.eqb_spec (owner sl) o) as [Q|N]; [|auto].
    exfalso. apply J. apply E. left. apply D2; [auto|congruence].
  - intros sl p. rewrite Hptr, !Hnode. destruct (Nat.eqb_spec (owner sl) o) as [|N]; [discriminate|].
    intros Ep. destruct (Nat.eqb_spec p o) as [->|]; [exfalso; eapply Hn; eauto|auto].
  - intros p Np k sl. rewrite Hrep, G9. rewrite G11. intros [I _]. eapply L5; eauto.
  - intros a. rewrite Hfresh, Hnode, Hrep. intros Ha. destruct (L6 _ Ha) as [A B]. split.
    + destruct (a =? o); auto.
    + destruct (rep s1 a) as [nx cb] eqn:Er.
      assert (nx = 0) by (pose proof (G9 a) as Q; rewrite Er, B in Q; exact Q).
      assert (cb = []).
      { destruct cb as [|[k sl] r]; auto. exfalso.
        assert (I : In (k, sl) (r_cbs (rep s1 a))) by (rewrite Er; left; auto).
        apply G11 in I. destruct I as [I _]. rewrite B in I. exact I. }
      subst. reflexivity.
  - intros t k. rewrite Hptr, Hfresh. destruct (owner (SEntry t k) =? o); [congruence|]. apply L7.
  - intros t k. rewrite Hptr, Hent. cbn [owner]. destruct (t =? o); [cbn; tauto|apply L8].
  - intros e. rewrite Hptr, Hnode. cbn [owner]. destruct (e =? o); [congruence|apply LS].
  - unfold s', release. cbn. rewrite G7. auto.
Qed.

(** ** Adding to a structure *)

Lemma lnk_entries : forall past s t l, Lnk past s ->
  (forall k, In k l -> ptr s (SEntry t k) <> None) ->
  Lnk past (set_entries (upd (entries s) t l) s).
Proof.
  intros past s t l L H. pose proof L as [L1 L2 L3 L4 L5 L6 L7 L8 LS L9]. constructor; cbn; auto.
  intros t' k. unfold upd. destruct (Nat.eqb_spec t' t) as [->|]; [apply H|apply L8].
Qed.

Lemma is_kd : forall s o,
  (is_det s o = true -> kd (node_of s o) = 1) /\ (is_prob s o = true -> kd (node_of s o) = 2) /\
  (is_im s o = true -> kd (node_of s o) = 3) /\ (is_edp s o = true -> kd (node_of s o) = 4) /\
  (is_frag s o = true -> kd (node_of s o) = 5) /\ (is_loss s o = true -> kd (node_of s o) = 6) /\
  (is_grp s o = true -> kd (node_of s o) = 7) /\ (is_str s o = true -> kd (node_of s o) = 8).
Proof.
  intros. unfold is_det, is_prob, is_im, is_edp, is_frag, is_loss, is_grp, is_str.
  destruct (node_of s o) as [[]|]; cbn; repeat split; intros; try discriminate; auto.
Qed.

Lemma same_type_kd : forall s o o', same_type s o o' = true -> kd (node_of s o) = kd (node_of s o').
Proof.
  intros s o o'. unfold same_type.
  unfold is_det, is_prob, is_im, is_edp, is_frag, is_loss, is_grp.
  destruct (node_of s o) as [[]|], (node_of s o') as [[]|]; cbn; intros; try discriminate; auto.
Qed.

Lemma opt_eqb_spec : forall a b, opt_eqb a b = true <-> a = b.
Proof.
  intros [x|] [y|]; cbn; rewrite ?Nat.eqb_eq; split; try congruence; auto.
Qed.

Lemma healthy_past : forall past s o, Lnk past s -> ~ In o past -> healthy s o.
Proof. intros past s o L. apply (l_healthy _ _ L). Qed.

Lemma healthy_rep : forall s s' o, rep s' o = rep s o -> healthy s o -> healthy s' o.
Proof. intros s s' o E H k sl. rewrite E. apply H. Qed.

Lemma lnk_add : forall past s t g, Lnk past s ->
  is_str s t = true -> is_grp s g = true -> careful_op s past (AddGrp t g) ->
  Lnk past (fst (do_add t g s)).
Proof.
  intros past s t g L Ht Hg [Hp He]. unfold do_add.
  assert (Kt : kd (node_of s t) = 8) by (apply is_kd; auto).
  assert (Kg : kd (node_of s g) = 7) by (apply is_kd; auto).
  set (s1 := match entries s t, im_of_grp s g with
             | [], Some i => register (SIm t) i s
             | _, _ => s end).
  assert (H1 : Lnk past s1 /\ node_of s1 = node_of s /\ (kd (node_of s1 g) = 7 -> rep s1 g = rep s g) /\ (forall k, ptr s1 (SEntry t k) = ptr s (SEntry t k)) /\ entries s1 = entries s /\ fresh s1 = fresh s).
  { unfold s1. destruct (entries s t) as [|k r] eqn:Ee; [|auto 7].
    destruct (im_of_grp s g) as [i|] eqn:Ei; [|auto 7].
    destruct (He eq_refl) as [He1 He2]. specialize (He2 i eq_refl).
    assert (Ki : kd (node_of s i) = 3).
    { unfold im_of_grp in Ei. destruct (ptr s (SEdp g)) as [e|]; [|discriminate].
      apply (l_typed _ _ L) in Ei. apply Ei. }
    split; [|split; [|split; [|split; [|split]]]]; try reflexivity.
    - apply lnk_register; auto.
      + apply (healthy_past _ _ _ L); auto.
      + destruct He1 as [E0|E0]; rewrite E0; auto.
    - intros _. unfold register. cbn. unfold upd. destruct (Nat.eqb_spec g i); [|auto].
      subst. congruence. }
  destruct H1 as (L1 & N1 & R1 & P1 & E1 & F1).
  destruct (opt_eqb (im_of_grp s1 g) (ptr s1 (SIm t))); [|exact L1].
  cbn [fst].
  eapply lnk_cch; [apply shr_cch, shr_wipe|].
  set (s2 := set_fresh (S (fresh s1)) s1).
  assert (L2 : Lnk past s2) by (apply lnk_fresh; auto).
  assert (L3 : Lnk past (register (SEntry t (fresh s1)) g s2)).
  { apply lnk_register; auto.
    - apply (healthy_past _ _ _ L2); auto.
    - left. destruct (ptr s2 (SEntry t (fresh s1))) eqn:E; auto.
      assert (fresh s1 < fresh s1); [|lia]. apply (l_entry _ _ L1 t). cbn in E. congruence.
    - cbn. rewrite N1. auto.
    - cbn. rewrite N1. auto. }
  apply lnk_entries; auto.
  intros k. intros I. apply in_app_or in I. destruct I as [I|[<- | [] ]].
  - apply (l_entries _ _ L3). exact I.
  - unfold register. cbn. rewrite us_same. discriminate.
Qed.

Lemma drop_first_in : forall p g l k, In k (drop_first p g l) -> In k l.
Proof.
  intros p g l. induction l as [|a r IH]; intros k; cbn; [auto|].
  destruct (p a) as [x|]; [destruct (x =? g)|]; cbn; intros; try tauto.
  - destruct H; auto.
  - destruct H; auto.
Qed.

(** ** Every operation *)

Lemma lnk_step : forall past s op, Lnk past s -> careful_op s past op ->
  Lnk (past_after past op) (fst (gstep C s op)).
Proof.
  intros past s op L Hc.
  pose proof (lnk_typed _ _ L) as T.
  assert (NW : forall sl n, owner sl = fresh s -> ptr (alloc n s) sl = None).
  { intros sl n E. cbn. destruct (ptr s sl) eqn:Q; auto. apply (ptr_alive _ _ _ _ L) in Q. lia. }
  assert (LT : forall o, kd (node_of s o) <> 0 -> o <> fresh s).
  { intros o K ->. apply K. rewrite (proj1 (l_alloc _ _ L (fresh s) (le_n _))). auto. }
  assert (KA : forall o n, o <> fresh s -> kd (node_of (alloc n s) o) = kd (node_of s o)).
  { intros o n N. cbn. rewrite upd_other by auto. auto. }
  destruct op; cbn [gstep past_after].
  - apply lnk_alloc; auto.
  - (* NewProb *)
    destruct (is_det s mu) eqn:E1; [|exact L]. destruct (is_det s sigma) eqn:E2; [|exact L]. cbn [andb].
    cbn in Hc. destruct Hc as [H1 H2].
    assert (K1 : kd (node_of s mu) = 1) by (apply is_kd; auto).
    assert (K2 : kd (node_of s sigma) = 1) by (apply is_kd; auto).
    assert (N1 : mu <> fresh s) by (apply LT; lia). assert (N2 : sigma <> fresh s) by (apply LT; lia).
    pose proof (lnk_alloc past s (NProb a) L) as La.
    assert (L1 : Lnk past (register (SMu (fresh s)) mu (alloc (NProb a) s))).
    { apply lnk_register; auto.
      - apply (healthy_past _ _ _ La); auto.
      - cbn [tk]. rewrite KA by auto. auto.
      - cbn. rewrite upd_same. auto. }
    apply lnk_register; auto.
    + apply (healthy_past _ _ _ L1); auto.
    + left. apply (NW (SSigma (fresh s)) (NProb a)). auto.
    + unfold register. cbn [add_callbacks]. change (kd (node_of (alloc (NProb a) s) sigma) = 1). rewrite KA; auto.
    + cbn. rewrite upd_same. auto.
  - (* NewIM *)
    destruct (is_det s f) eqn:E1; [|exact L].
    cbn in Hc.
    assert (K1 : kd (node_of s f) = 1) by (apply is_kd; auto).
    assert (N1 : f <> fresh s) by (apply LT; lia).
    pose proof (lnk_alloc past s (NIM None None) L) as La.
    apply lnk_register; auto.
    + apply (healthy_past _ _ _ La); auto.
    + cbn [tk]. rewrite KA by auto. auto.
    + cbn. rewrite upd_same. auto.
  - (* NewEdp *)
    destruct (is_im s base) eqn:E1; [|exact L]. destruct (is_prob s dep) eqn:E2; [|exact L]. cbn [andb].
    cbn in Hc. destruct Hc as [H1 H2].
    assert (K1 : kd (node_of s base) = 3) by (apply is_kd; auto).
    assert (K2 : kd (node_of s dep) = 2) by (apply is_kd; auto).
    assert (N1 : base <> fresh s) by (apply LT; lia). assert (N2 : dep <> fresh s) by (apply LT; lia).
    pose proof (lnk_alloc past s NEdp L) as La.
    assert (L1 : Lnk past (register (SBase (fresh s)) base (alloc NEdp s))).
    { apply lnk_register; auto.
      - apply (healthy_past _ _ _ La); auto.
      - cbn [tk]. rewrite KA by auto. auto.
      - cbn. rewrite upd_same. auto. }
    apply lnk_register; auto.
    + apply (healthy_past _ _ _ L1); auto.
    + left. apply (NW (SDep (fresh s)) NEdp). auto.
    + change (kd (node_of (alloc NEdp s) dep) = 2). rewrite KA; auto.
    + cbn. rewrite upd_same. auto.
  - (* NewCompound *)
    destruct (is_im s base) eqn:E1; [|exact L]. destruct (is_prob s dep) eqn:E2; [|exact L].
    destruct (is_prob s second) eqn:E3; [|exact L]. cbn [andb].
    cbn in Hc. destruct Hc as (H1 & H2 & H3).
    assert (K1 : kd (node_of s base) = 3) by (apply is_kd; auto).
    assert (K2 : kd (node_of s dep) = 2) by (apply is_kd; auto).
    assert (K3 : kd (node_of s second) = 2) by (apply is_kd; auto).
    assert (N1 : base <> fresh s) by (apply LT; lia). assert (N2 : dep <> fresh s) by (apply LT; lia).
    assert (N3 : second <> fresh s) by (apply LT; lia).
    pose proof (lnk_alloc past s NCompound L) as La.
    assert (L1 : Lnk past (register (SBase (fresh s)) base (alloc NCompound s))).
    { apply lnk_register; auto.
      - apply (healthy_past _ _ _ La); auto.
      - cbn [tk]. rewrite KA by auto. auto.
      - cbn. rewrite upd_same. auto. }
    assert (L2 : Lnk past (register (SDep (fresh s)) dep (register (SBase (fresh s)) base (alloc NCompound s)))).
    { apply lnk_register; auto.
      + apply (healthy_past _ _ _ L1); auto.
      + left. apply (NW (SDep (fresh s)) NCompound). auto.
      + change (kd (node_of (alloc NCompound s) dep) = 2). rewrite KA; auto.
      + cbn. rewrite upd_same. auto. }
    apply lnk_register; auto.
    + apply (healthy_past _ _ _ L2); auto.
    + left. apply (NW (SSecond (fresh s)) NCompound). auto.
    + change (kd (node_of (alloc NCompound s) second) = 2). rewrite KA; auto.
    + cbn. rewrite upd_same. auto.
    + cbn. rewrite upd_same. auto.
  - apply lnk_alloc; auto.
  - apply lnk_alloc; auto.
  - (* NewGrp *)
    destruct (is_edp s e) eqn:E1; [|exact L]. destruct (is_frag s f) eqn:E2; [|exact L].
    destruct (opt_loss s cost) eqn:E3; [|exact L]. destruct (opt_loss s delay) eqn:E4; [|exact L]. cbn [andb].
    cbn in Hc. destruct Hc as (H1 & H2 & H3 & H4).
    assert (K1 : kd (node_of s e) = 4) by (apply is_kd; auto).
    assert (K2 : kd (node_of s f) = 5) by (apply is_kd; auto).
    assert (N1 : e <> fresh s) by (apply LT; lia). assert (N2 : f <> fresh s) by (apply LT; lia).
    pose proof (lnk_alloc past s (NGrp a) L) as La.
    set (o := fresh s).
    assert (L1 : Lnk past (register (SEdp o) e (alloc (NGrp a) s))).
    { apply lnk_register; auto.
      - apply (healthy_past _ _ _ La); auto.
      - cbn [tk]. rewrite KA by auto. auto.
      - cbn. unfold o. rewrite upd_same. auto. }
    assert (L2 : Lnk past (register (SFrag o) f (register (SEdp o) e (alloc (NGrp a) s)))).
    { apply lnk_register; auto.
      + apply (healthy_past _ _ _ L1); auto.
      + left. apply (NW (SFrag o) (NGrp a)). auto.
      + change (kd (node_of (alloc (NGrp a) s) f) = 5). rewrite KA; auto.
      + cbn. unfold o. rewrite upd_same. auto. }
    set (s2 := register (SFrag o) f (register (SEdp o) e (alloc (NGrp a) s))) in *.
    set (s3 := match cost with Some c => register (SCost o) c s2 | None => s2 end).
    assert (L3 : Lnk past s3 /\ node_of s3 = node_of (alloc (NGrp a) s) /\ ptr s3 (SDelay o) = None).
    { assert (PN : forall sl, sl = SCost o \/ sl = SDelay o -> ptr s2 sl = None).
      { intros sl [->| ->];
          [apply (NW (SCost o) (NGrp a)); auto|apply (NW (SDelay o) (NGrp a)); auto]. }
      unfold s3. destruct cost as [c|]; [|split; [auto|split; [reflexivity|apply PN; auto]]].
      cbn in E3. assert (K3 : kd (node_of s c) = 6) by (apply is_kd; auto).
      assert (N3 : c <> fresh s) by (apply LT; lia).
      split; [|split; [reflexivity|]].
      - apply lnk_register; auto.
        + apply (healthy_past _ _ _ L2); auto.
        + change (kd (node_of (alloc (NGrp a) s) c) = 6). rewrite KA; auto.
        + cbn. unfold o. rewrite upd_same. auto.
      - apply (NW (SDelay o) (NGrp a)). auto. }
    destruct L3 as (L3 & M3 & D3).
    destruct delay as [d|]; [|exact L3]. cbn [fst].
    cbn in E4. assert (K3 : kd (node_of s d) = 6) by (apply is_kd; auto).
    assert (N3 : d <> fresh s) by (apply LT; lia).
    apply lnk_register; auto.
    + apply (healthy_past _ _ _ L3); auto.
    + rewrite M3. rewrite KA; auto.
    + rewrite M3. cbn. unfold o. rewrite upd_same. auto.
  - apply lnk_alloc; auto.
  - (* SetCollapse *)
    destruct (node_of s i) as [[]|] eqn:E; try exact L. cbn [fst].
    set (s1 := wipe _ s).
    assert (L1 : Lnk past s1) by (eapply lnk_cch; [apply shr_cch, shr_wipe|exact L]).
    assert (L2 : Lnk past (set_node_of (upd (node_of s1) i (Some (NIM c demolition))) s1)).
    { eapply lnk_node; [exact L1|exact E|reflexivity|discriminate]. }
    eapply lnk_cch; [|exact L2]. apply shr_cch. apply notify_spec. eapply lnk_typed; eauto.
  - (* SetDemolition *)
    destruct (node_of s i) as [[]|] eqn:E; try exact L. cbn [fst].
    set (s1 := wipe _ s).
    assert (L1 : Lnk past s1) by (eapply lnk_cch; [apply shr_cch, shr_wipe|exact L]).
    assert (L2 : Lnk past (set_node_of (upd (node_of s1) i (Some (NIM collapse d))) s1)).
    { eapply lnk_node; [exact L1|exact E|reflexivity|discriminate]. }
    eapply lnk_cch; [|exact L2]. apply shr_cch. apply notify_spec. eapply lnk_typed; eauto.
  - (* Replace *)
    cbn in Hc. destruct Hc as (H1 & H2 & H3).
    destruct (same_type s o o') eqn:E.
    + apply (lnk_replace past s o o' L (same_type_kd _ _ _ E) H1 H2 H3).
    + cbn [fst]. pose proof L as [L1 L2 L3 L4 L5 L6 L7 L8 LS L9]. constructor; auto.
      intros p Np. apply L5. intros I. apply Np. right; auto.
  - (* Destroy *)
    destruct (node_of s o) as [n|] eqn:E; [|exact L].
    destruct (referenced s o) eqn:Er; [exact L|]. cbn [fst].
    apply (lnk_destroy past s o n L E Hc Er).
  - (* AddGrp *)
    destruct (is_str s t) eqn:E1; [|exact L]. destruct (is_grp s g) eqn:E2; [|exact L]. cbn [andb].
    pose proof (lnk_add past s t g L E1 E2 Hc) as H. destruct (do_add t g s). exact H.
  - (* RemoveGrp *)
    destruct (is_str s t && is_grp s g); [|exact L]. cbn [fst].
    apply lnk_entries; [exact L|]. intros k I. apply (l_entries _ _ L).
    eapply drop_first_in; eauto.
  - destruct (node_of s t) as [[]|] eqn:E; try exact L. cbn [fst].
    eapply lnk_node; [exact L|exact E|reflexivity|discriminate].
  - destruct (node_of s t) as [[]|] eqn:E; try exact L. cbn [fst].
    eapply lnk_node; [exact L|exact E|reflexivity|discriminate].
  - destruct L. constructor; auto.
  - eapply lnk_cch; [apply shr_cch, shr_wipe|exact L].
  - pose proof (cch_query q s) as H. destruct (do_query C q s). eapply lnk_cch; eauto.
Qed.

End Proofs.
