(** Proofs about the object graph: remembered figures of demand parameters and
    groups stay current. *)

Require Import List Arith Bool Lia.
From Verif Require Import Replaceable Replaceable_proofs Graph Graph_spec Graph_proofs Graph_proofs2.
Import ListNotations.

Section Proofs.

Context {X V P : Type}.
Variable C : calcs X V P.
Notation state := (@st X V P).
Implicit Types s : state.

(** ** Reading functions and reading relations *)

Lemma det_iff : forall s sl a, det_of s (ptr s sl) = Some a <-> det_is s sl a.
Proof.
  intros. unfold det_is, det_of. destruct (ptr s sl) as [d|]; [|split; [discriminate|intros [? [? _]]; discriminate]].
  split.
  - intros H. exists d. destruct (node_of s d) as [[]|]; inversion H; subst; auto.
  - intros [x [E N]]. inversion E; subst. rewrite N. auto.
Qed.

Lemma prob_iff : forall s sl d, prob_of s (ptr s sl) = Some d <-> prob_is s sl d.
Proof.
  intros s sl [[a m] g]. unfold prob_is, prob_of. cbn [fst snd].
  destruct (ptr s sl) as [p|]; [|split; [discriminate|intros [? [? _]]; discriminate]].
  split.
  - intros H. exists p. split; auto. rewrite <- !det_iff.
    destruct (node_of s p) as [[]|]; try discriminate.
    destruct (det_of s (ptr s (SMu p))); [|discriminate].
    destruct (det_of s (ptr s (SSigma p))); [|discriminate]. inversion H; subst. auto.
  - intros [x [E [N [M G]]]]. inversion E; subst. apply det_iff in M. apply det_iff in G.
    rewrite N, M, G. auto.
Qed.

Lemma im_iff : forall s i d, im_of s (Some i) = Some d <-> im_is s i d.
Proof.
  intros s i [[f c] d]. unfold im_is, im_of. cbn [fst snd]. rewrite <- det_iff.
  split.
  - destruct (node_of s i) as [[]|]; try discriminate.
    destruct (det_of s (ptr s (SF i))); [|discriminate]. intros H; inversion H; subst. auto.
  - intros [N F]. rewrite N, F. auto.
Qed.

Lemma im_ptr_iff : forall s sl d,
  im_of s (ptr s sl) = Some d <-> exists i, ptr s sl = Some i /\ im_is s i d.
Proof.
  intros. destruct (ptr s sl) as [i|].
  - rewrite im_iff. split; [eauto|]. intros [x [E H]]. inversion E; subst; auto.
  - split; [discriminate|]. intros [? [? _]]; discriminate.
Qed.

Lemma edp_iff : forall s e d, edp_of s (Some e) = Some d <-> edp_is s e d.
Proof.
  intros s e [[i p] o]. unfold edp_is. cbn [fst snd]. rewrite <- im_ptr_iff, <- prob_iff.
  unfold edp_of. split.
  - destruct (node_of s e) as [[]|]; try discriminate;
      (destruct (im_of s (ptr s (SBase e))); [|discriminate]);
      (destruct (prob_of s (ptr s (SDep e))); [|discriminate]).
    + intros H; inversion H; subst; auto.
    + destruct (prob_of s (ptr s (SSecond e))) eqn:E2; [|discriminate].
      intros H; inversion H; subst. apply prob_iff in E2. auto.
  - intros (I & Pb & O). rewrite I, Pb. destruct o as [p2|].
    + destruct O as [N S2]. rewrite N. apply prob_iff in S2. rewrite S2. auto.
    + rewrite O. auto.
Qed.

Lemma edp_ptr_iff : forall s sl d,
  edp_of s (ptr s sl) = Some d <-> exists e, ptr s sl = Some e /\ edp_is s e d.
Proof.
  intros. destruct (ptr s sl) as [i|].
  - rewrite edp_iff. split; [eauto|]. intros [x [E H]]. inversion E; subst; auto.
  - split; [discriminate|]. intros [? [? _]]; discriminate.
Qed.

Lemma frag_iff : forall s sl a,
  frag_of s (ptr s sl) = Some a <-> exists f, ptr s sl = Some f /\ node_of s f = Some (NFrag a).
Proof.
  intros. unfold frag_of. destruct (ptr s sl) as [d|]; [|split; [discriminate|intros [? [? _]]; discriminate]].
  split.
  - intros H. exists d. destruct (node_of s d) as [[]|]; inversion H; subst; auto.
  - intros [x [E N]]. inversion E; subst. rewrite N. auto.
Qed.

Lemma loss_iff : forall s sl l, loss_of s (ptr s sl) = Some l <-> loss_is s sl l.
Proof.
  intros. unfold loss_of, loss_is. destruct (ptr s sl) as [d|].
  - destruct l as [a|].
    + split.
      * intros H. exists d. destruct (node_of s d) as [[]|]; inversion H; subst; auto.
      * intros [x [E N]]. inversion E; subst. rewrite N. auto.
    + split; [|discriminate]. destruct (node_of s d) as [[]|]; discriminate.
  - destruct l; split; auto; try discriminate. intros [? [? _]]; discriminate.
Qed.

Lemma grp_iff : forall s g d, grp_of s g = Some d <-> grp_is s g d.
Proof.
  intros s g [e f c dl a]. unfold grp_is. cbn. rewrite <- edp_ptr_iff, <- frag_iff, <- !loss_iff.
  unfold grp_of. split.
  - destruct (node_of s g) as [[]|]; try discriminate.
    destruct (edp_of _ _); [|discriminate]. destruct (frag_of _ _); [|discriminate].
    destruct (loss_of s (ptr s (SCost g))); [|discriminate].
    destruct (loss_of s (ptr s (SDelay g))); [|discriminate].
    intros H; inversion H; subst. auto 6.
  - intros (N & E & F & Cc & D). rewrite N, E, F, Cc, D. auto.
Qed.

Lemma str_im_iff : forall s t d, str_im s t = Some d <-> str_im_is s t d.
Proof.
  intros. unfold str_im, str_im_is. destruct (ptr s (SIm t)) as [i|].
  - destruct d as [d|].
    + split.
      * intros H. exists i. split; auto. apply im_iff. destruct (im_of s (Some i)); inversion H; auto.
      * intros [x [E H]]. inversion E; subst. apply im_iff in H. rewrite H. auto.
    + split; [|discriminate]. destruct (im_of s (Some i)); discriminate.
  - destruct d; split; auto; try discriminate. intros [? [? _]]; discriminate.
Qed.

Lemma grps_iff : forall s t ds,
  (exists gs, sequence (map (grp_entry s) (groups s t)) = Some gs /\ map snd gs = ds) <->
  grps_are s t ds.
Proof.
  intros s t. unfold grps_are, groups.
  induction (entries s t) as [|k r IH]; intros ds; cbn.
  - split.
    + intros [gs [E M]]. inversion E; subst. constructor.
    + intros H. inversion H; subst. exists []. auto.
  - split.
    + intros [gs [E M]]. destruct (grp_entry s (ptr s (SEntry t k))) as [[g d]|] eqn:Eg; [|discriminate].
      destruct (sequence _) as [l|] eqn:El; [|discriminate]. inversion E; subst. cbn. constructor.
      * unfold grp_entry in Eg. destruct (ptr s (SEntry t k)) as [x|]; [|discriminate].
        destruct (grp_of s x) eqn:Ex; [|discriminate]. inversion Eg; subst.
        exists g. split; auto. apply grp_iff. auto.
      * apply IH. exists l. auto.
    + intros H. inversion H as [|? d ? ds' [g [Eg Hg]] H2]; subst. apply IH in H2.
      destruct H2 as [gs [E M]]. apply grp_iff in Hg. rewrite E, Eg. cbn. rewrite Hg. cbn.
      exists ((g, d) :: gs). cbn. rewrite M. auto.
Qed.

Lemma sequence_grps : forall s t gs, sequence (map (grp_entry s) (groups s t)) = Some gs ->
  forall g d, In (g, d) gs -> grp_of s g = Some d.
Proof.
  intros s t. induction (groups s t) as [|k r IH]; intros gs; cbn.
  - intros H g d. inversion H; subst. intros [].
  - destruct (grp_entry s k) as [[g0 d0]|] eqn:E; [|discriminate].
    destruct (sequence _) as [l|]; [|discriminate]. intros H g d. inversion H; subst.
    intros [Q|I]; [|eapply IH; eauto]. inversion Q; subst.
    unfold grp_entry in E. destruct k as [k|]; [|discriminate].
    destruct (grp_of s k) eqn:Eg; [|discriminate]. inversion E; subst. auto.
Qed.

(** ** Correct figures *)

(** The figures of demand parameters and groups. *)
Definition lg (k : ckey X) : bool :=
  match k with KLambda _ _ | KGrp _ _ => true | _ => false end.

Definition correct s (k : ckey X) (v : V) : Prop :=
  match k with
  | KLambda e x => exists d, edp_of s (Some e) = Some d /\ v = c_lambda C (settings s) d x
  | KGrp g q => exists d, grp_of s g = Some d /\ v = p_grp C (settings s) d q
  | _ => True
  end.

Definition Frs s : Prop := forall k v, cache s k = Some v -> correct s k v.

Lemma correct_kind : forall s k v, lg k = true -> correct s k v ->
  kd (node_of s (kowner k)) = match k with KLambda _ _ => 4 | _ => 7 end.
Proof.
  intros s k v G H. destruct k; try discriminate; cbn in *; destruct H as [d [E _]].
  - unfold edp_of in E. destruct (node_of s e) as [[]|]; try discriminate; auto.
  - unfold grp_of in E. destruct (node_of s g) as [[]|]; try discriminate; auto.
Qed.

(** The reading functions only read some fields. *)
Lemma edp_of_eq : forall s s' o, node_of s' = node_of s -> ptr s' = ptr s -> edp_of s' o = edp_of s o.
Proof.
  intros s s' o E1 E2. unfold edp_of, im_of, prob_of, det_of. rewrite E1, E2. auto.
Qed.
Lemma grp_of_eq : forall s s' g, node_of s' = node_of s -> ptr s' = ptr s -> grp_of s' g = grp_of s g.
Proof.
  intros s s' g E1 E2. unfold grp_of. rewrite (edp_of_eq s s') by auto.
  unfold frag_of, loss_of. rewrite E1, E2. auto.
Qed.

Lemma correct_cch : forall s s' k v, cch s s' -> correct s k v -> correct s' k v.
Proof.
  intros s s' k v H. destruct k; cbn [correct]; auto.
  - rewrite (edp_of_eq s s') by apply H. rewrite (cch_settings _ _ H). auto.
  - rewrite (grp_of_eq s s') by apply H. rewrite (cch_settings _ _ H). auto.
Qed.

(** ** Frame *)

Section Frame.

Variables (s s' : state) (Fp : slot -> Prop).
Hypothesis up : forall sl sl', Fp sl -> ptr s sl = Some (owner sl') -> notifies sl' = true -> Fp sl'.
Hypothesis F : forall sl, Fp sl ->
  ptr s' sl = ptr s sl /\ forall a, ptr s sl = Some a -> node_of s' a = node_of s a.

Lemma det_frame : forall sl, Fp sl -> det_of s' (ptr s' sl) = det_of s (ptr s sl).
Proof.
  intros sl H. destruct (F _ H) as [E N]. rewrite E. unfold det_of.
  destruct (ptr s sl) as [a|]; auto. rewrite (N a) by auto. auto.
Qed.

Lemma prob_frame : forall sl, Fp sl -> prob_of s' (ptr s' sl) = prob_of s (ptr s sl).
Proof.
  intros sl H. destruct (F _ H) as [E N]. rewrite E. unfold prob_of.
  destruct (ptr s sl) as [a|] eqn:Ep; auto. rewrite (N a) by auto.
  rewrite !det_frame; auto; eapply up; eauto.
Qed.

Lemma im_frame : forall sl, Fp sl -> im_of s' (ptr s' sl) = im_of s (ptr s sl).
Proof.
  intros sl H. destruct (F _ H) as [E N]. rewrite E. unfold im_of.
  destruct (ptr s sl) as [a|] eqn:Ep; auto. rewrite (N a) by auto.
  rewrite !det_frame; auto; eapply up; eauto.
Qed.

Lemma edp_frame : forall e, node_of s' e = node_of s e ->
  Fp (SBase e) -> Fp (SDep e) -> Fp (SSecond e) ->
  edp_of s' (Some e) = edp_of s (Some e).
Proof.
  intros e N H1 H2 H3. unfold edp_of. rewrite N, im_frame, !prob_frame; auto.
Qed.

Lemma edp_ptr_frame : forall sl, Fp sl -> edp_of s' (ptr s' sl) = edp_of s (ptr s sl).
Proof.
  intros sl H. destruct (F _ H) as [E N]. rewrite E.
  destruct (ptr s sl) as [a|] eqn:Ep; [|auto].
  apply edp_frame; auto; eapply up; eauto.
Qed.

Lemma frag_frame : forall sl, Fp sl -> frag_of s' (ptr s' sl) = frag_of s (ptr s sl).
Proof.
  intros sl H. destruct (F _ H) as [E N]. rewrite E. unfold frag_of.
  destruct (ptr s sl) as [a|]; auto. rewrite (N a) by auto. auto.
Qed.

Lemma loss_frame : forall sl, Fp sl -> loss_of s' (ptr s' sl) = loss_of s (ptr s sl).
Proof.
  intros sl H. destruct (F _ H) as [E N]. rewrite E. unfold loss_of.
  destruct (ptr s sl) as [a|]; auto. rewrite (N a) by auto. auto.
Qed.

End Frame.

Lemma hit_up : forall past s (k : ckey X), Lnk past s ->
  forall sl sl', hit (rep s) sl k -> ptr s sl = Some (owner sl') ->
  notifies sl' = true -> hit (rep s) sl' k.
Proof.
  intros past s k L sl sl' H E N. eapply hit_next; [exact N| |exact H].
  apply (lnk_clients _ _ L). auto.
Qed.

Lemma loss_some : forall past s sl, Lnk past s -> tk sl = 6 -> exists l, loss_of s (ptr s sl) = Some l.
Proof.
  intros past s sl L T. unfold loss_of. destruct (ptr s sl) as [a|] eqn:E; eauto.
  destruct (l_typed _ _ L _ _ E) as [K _]. rewrite T in K.
  destruct (node_of s a) as [[]|]; try discriminate. eauto.
Qed.

(** Which figures do not depend on the cost or the delay function. *)
Lemma pure_ext : forall Q A (f g : Q -> A) (c : comp V Q A), (forall q, f q = g q) -> pure f c = pure g c.
Proof. intros Q A f g c H. induction c as [v|q k IH]; cbn; auto. rewrite H. auto. Qed.

Lemma p_grp_delay : forall p e f c c' dl a q,
  match q with GEDelay _ | GSDDelay _ => True | _ => False end ->
  p_grp C p (GDen e f c dl a) q = p_grp C p (GDen e f c' dl a) q.
Proof. intros p e f c c' dl a q H. destruct q; try tauto; reflexivity. Qed.

Lemma p_grp_cost : forall p e f c dl dl' a q,
  match q with GEDelay _ | GSDDelay _ | GDelayDist _ => False | _ => True end ->
  p_grp C p (GDen e f c dl a) q = p_grp C p (GDen e f c dl' a) q.
Proof. intros p e f c dl dl' a q H. destruct q; try tauto; reflexivity. Qed.

Lemma correct_frame : forall past past' s s' k v, Lnk past s -> Lnk past' s' ->
  (forall sl, hit (rep s) sl k ->
     ptr s' sl = ptr s sl /\ forall a, ptr s sl = Some a -> node_of s' a = node_of s a) ->
  node_of s' (kowner k) = node_of s (kowner k) -> settings s' = settings s ->
  correct s k v -> correct s' k v.
Proof.
  intros past past' s s' k v L L' F N St.
  pose proof (hit_up past s k L) as U.
  destruct k; cbn [correct]; auto; intros [d [E ->]].
  - exists d. rewrite St. split; auto. rewrite <- E.
    apply (edp_frame s s' _ U F); auto; apply hit_here; cbn; apply Nat.eqb_refl.
  - rewrite St. cbn [kowner] in N.
    assert (Ht : Nat.eqb g g = true) by apply Nat.eqb_refl.
    unfold grp_of in *. rewrite N.
    rewrite (edp_ptr_frame _ _ _ U F) by (apply hit_here; cbn; auto).
    rewrite (frag_frame _ _ _ F) by (apply hit_here; cbn; auto).
    destruct (loss_some _ _ (SCost g) L eq_refl) as [c Ec].
    destruct (loss_some _ _ (SCost g) L' eq_refl) as [c' Ec'].
    destruct (loss_some _ _ (SDelay g) L eq_refl) as [dl Ed].
    destruct (loss_some _ _ (SDelay g) L' eq_refl) as [dl' Ed'].
    rewrite Ec', Ed'. rewrite Ec, Ed in E.
    destruct (node_of s g) as [[]|]; try discriminate.
    destruct (edp_of s _) as [e|]; [|discriminate]. destruct (frag_of s _) as [f|]; [|discriminate].
    inversion E; subst. exists (GDen e f c' dl' a). split; auto.
    assert (Hc : clears (SCost g) (KGrp g q) = true -> c' = c).
    { intros H. rewrite (loss_frame _ _ _ F) in Ec' by (apply hit_here; auto). congruence. }
    assert (Hd : clears (SDelay g) (KGrp g q) = true -> dl' = dl).
    { intros H. rewrite (loss_frame _ _ _ F) in Ed' by (apply hit_here; auto). congruence. }
    destruct q; cbn in Hc, Hd; try rewrite (Hc Ht); try rewrite (Hd Ht);
      try (apply p_grp_delay; exact I); try (apply p_grp_cost; exact I); reflexivity.
Qed.

(** The frame lemma: what is still remembered is still correct. *)
Lemma frs_frame : forall past past' s s', Lnk past s -> Lnk past' s' -> Frs s ->
  settings s' = settings s ->
  (forall k v, cache s' k = Some v -> cache s k = Some v) ->
  (forall sl k v, cache s' k = Some v -> lg k = true -> hit (rep s) sl k -> ptr s' sl = ptr s sl) ->
  (forall sl k v a, cache s' k = Some v -> lg k = true -> hit (rep s) sl k -> ptr s sl = Some a ->
     node_of s' a = node_of s a) ->
  (forall k v, cache s' k = Some v -> lg k = true -> node_of s' (kowner k) = node_of s (kowner k)) ->
  Frs s'.
Proof.
  intros past past' s s' L L' Hf St Sh H1 H2 H3 k v E.
  destruct (lg k) eqn:G; [|destruct k; try discriminate; exact I].
  apply (correct_frame past past' s s'); auto; [|eapply H3; eauto].
  intros sl Hh. split; [eauto|]. intros a Ea. eauto.
Qed.

Lemma hit_unused : forall past s sl (k : ckey X), Lnk past s -> hit (rep s) sl k ->
  (forall sl', ptr s sl' <> Some (owner sl)) -> clears sl k = true.
Proof.
  intros past s sl k L H N. inversion H; subst; auto.
  exfalso. apply (lnk_clients _ _ L) in H1. eapply N; eauto.
Qed.

Lemma clears_owner : forall sl (k : ckey X), clears sl k = true -> kowner k = owner sl.
Proof.
  intros sl key. destruct sl, key; try destruct q; cbn; intros H; try discriminate; apply Nat.eqb_eq in H; auto.
Qed.

(** Creating an object. *)
Lemma frs_new : forall past past' s s', Lnk past s -> Lnk past' s' -> Frs s ->
  settings s' = settings s -> cache s' = cache s ->
  (forall sl, owner sl <> fresh s -> ptr s' sl = ptr s sl) ->
  (forall a, a <> fresh s -> node_of s' a = node_of s a) ->
  Frs s'.
Proof.
  intros past past' s s' L L' Hf St Ca Hp Hn.
  assert (Ho : forall k v, cache s' k = Some v -> lg k = true -> kowner k <> fresh s).
  { intros k v E G Q. rewrite Ca in E. apply Hf in E. apply correct_kind in E; auto.
    rewrite Q, (proj1 (l_alloc _ _ L (fresh s) (le_n _))) in E. destruct k; discriminate. }
  assert (Hu : forall sl a, ptr s sl = Some a -> a <> fresh s).
  { intros sl a E Q. apply (ptr_alive _ _ _ _ L) in E. lia. }
  apply (frs_frame past past' s s'); eauto.
  - rewrite Ca. auto.
  - intros sl k v E G H. apply Hp. intros Q. eapply Ho; eauto.
    assert (clears sl k = true).
    { apply (hit_unused past s); auto. intros sl0 E0. apply Hu in E0. congruence. }
    rewrite <- Q. apply clears_owner. auto.
Qed.

(** ** Queries *)

(** Growth: the figures remembered in between are correct. *)
Record ext s s' : Prop := {
  ext_cch : cch s s';
  ext_new : forall k v, cache s' k = Some v -> cache s k = Some v \/ lg k = true /\ correct s k v;
  ext_old : forall k v, cache s k = Some v -> cache s' k = Some v
}.

Lemma ext_refl : forall s, ext s s.
Proof. constructor; auto. apply cch_refl. Qed.

Lemma cch_sym : forall s s', cch s s' -> cch s' s.
Proof. intros s s' []. constructor; auto. Qed.

Lemma ext_trans : forall a b c, ext a b -> ext b c -> ext a c.
Proof.
  intros a b c H1 H2. constructor.
  - eapply cch_trans; apply ext_cch; eauto.
  - intros k v E. destruct (ext_new _ _ H2 _ _ E) as [E'|[G E']].
    + apply (ext_new _ _ H1); auto.
    + right. split; auto. eapply correct_cch; [apply cch_sym, ext_cch; exact H1|exact E'].
  - intros k v E. apply (ext_old _ _ H2), (ext_old _ _ H1). auto.
Qed.

Lemma ext_frs : forall s s', ext s s' -> Frs s -> Frs s'.
Proof.
  intros s s' H Hf k v E. eapply correct_cch; [apply ext_cch; eauto|].
  destruct (ext_new _ _ H _ _ E) as [E'|[_ E']]; auto.
Qed.

Lemma cached_ext : forall k f s v, Frs s -> lg k = true ->
  (forall w, correct s k w -> w = v) -> correct s k v ->
  (cache s k = None -> ext s (fst (f s)) /\ snd (f s) = v) ->
  ext s (fst (cached C k f s)) /\ snd (cached C k f s) = v.
Proof.
  intros k f s v Hf G U Hv H. unfold cached. destruct (cache s k) as [w|] eqn:E.
  - split; [apply ext_refl|]. apply U. apply Hf. auto.
  - destruct (H eq_refl) as [H1 H2]. destruct (f s) as [s' w]. cbn in H1, H2. subst. cbn.
    split; auto. eapply ext_trans; [exact H1|]. constructor.
    + apply cch_cput.
    + intros k' v'. cbn. destruct (ckey_eq C k' k) as [->|]; auto.
      intros Q. inversion Q; subst. right. split; auto. eapply correct_cch; [apply ext_cch; eauto|auto].
    + intros k' v' E'. cbn. destruct (ckey_eq C k' k) as [->|]; auto.
      destruct (ext_new _ _ H1 _ _ E') as [Q|[_ Q]]; [congruence|]. f_equal. symmetry. apply U. auto.
Qed.

Lemma run_ext : forall Q A (ask : Q -> state -> state * A) (ans : Q -> A) (I : state -> Prop),
  (forall s s', ext s s' -> I s -> I s') ->
  (forall q s, I s -> ext s (fst (ask q s)) /\ snd (ask q s) = ans q) ->
  forall (c : comp V Q A) s, I s -> ext s (fst (run ask c s)) /\ snd (run ask c s) = pure ans c.
Proof.
  intros Q A ask ans I HI H c. induction c as [v|q k IH]; intros s Hs; cbn.
  - split; [apply ext_refl|auto].
  - destruct (H q s Hs) as [H1 H2]. destruct (ask q s) as [s' a]. cbn in H1, H2. subst.
    destruct (IH (ans q) s' (HI _ _ H1 Hs)) as [H3 H4]. split; auto. eapply ext_trans; eauto.
Qed.

(** A state in which a group is as given and what is remembered is correct. *)
Definition ready p g d s : Prop := Frs s /\ grp_of s g = Some d /\ settings s = p.

Lemma ready_ext : forall p g d s s', ext s s' -> ready p g d s -> ready p g d s'.
Proof.
  intros p g d s s' H [H1 [H2 H3]]. pose proof (ext_cch _ _ H) as Hc. split; [|split].
  - eapply ext_frs; eauto.
  - rewrite (grp_of_eq s s') by apply Hc. auto.
  - rewrite (cch_settings _ _ Hc). auto.
Qed.

Lemma cached_grp : forall p g d q f s, ready p g d s ->
  (ext s (fst (f s)) /\ snd (f s) = p_grp C p d q) ->
  ext s (fst (cached C (KGrp g q) f s)) /\ snd (cached C (KGrp g q) f s) = p_grp C p d q.
Proof.
  intros p g d q f s [H1 [H2 H3]] H. apply cached_ext; auto.
  - intros w [d' [E ->]]. rewrite H2 in E. inversion E; subst. auto.
  - exists d. rewrite H3. auto.
Qed.

Lemma costdist_ok : forall p g d x s, ready p g d s ->
  ext s (fst (q_costdist C g d x s)) /\ snd (q_costdist C g d x s) = p_costdist C d x.
Proof.
  intros p g d x s R. apply (cached_grp p g d (GCostDist x)); auto. split; [apply ext_refl|reflexivity].
Qed.
Lemma delaydist_ok : forall p g d x s, ready p g d s ->
  ext s (fst (q_delaydist C g d x s)) /\ snd (q_delaydist C g d x s) = p_delaydist C d x.
Proof.
  intros p g d x s R. apply (cached_grp p g d (GDelayDist x)); auto. split; [apply ext_refl|reflexivity].
Qed.
Lemma ecost_ok : forall p g d x s, ready p g d s ->
  ext s (fst (q_ecost C g d x s)) /\ snd (q_ecost C g d x s) = p_ecost C p d x.
Proof.
  intros p g d x s R. apply (cached_grp p g d (GECost x)); auto.
  rewrite (proj2 (proj2 R)).
  apply (run_ext _ _ (q_costdist C g d) (p_costdist C d) (ready p g d)); auto.
  - intros; eapply ready_ext; eauto.
  - intros. eapply costdist_ok; eauto.
Qed.
Lemma sdcost_ok : forall p g d x s, ready p g d s ->
  ext s (fst (q_sdcost C g d x s)) /\ snd (q_sdcost C g d x s) = p_sdcost C p d x.
Proof.
  intros p g d x s R. apply (cached_grp p g d (GSDCost x)); auto.
  rewrite (proj2 (proj2 R)).
  apply (run_ext _ _ _ (fun q => match q with inl x => p_costdist C d x | inr x => p_ecost C p d x end)
           (ready p g d)); auto.
  - intros; eapply ready_ext; eauto.
  - intros [y|y] s1 R1; [eapply costdist_ok; eauto|apply ecost_ok; auto].
Qed.
Lemma edelay_ok : forall p g d x s, ready p g d s ->
  ext s (fst (q_edelay C g d x s)) /\ snd (q_edelay C g d x s) = p_edelay C p d x.
Proof.
  intros p g d x s R. apply (cached_grp p g d (GEDelay x)); auto.
  rewrite (proj2 (proj2 R)).
  apply (run_ext _ _ (q_delaydist C g d) (p_delaydist C d) (ready p g d)); auto.
  - intros; eapply ready_ext; eauto.
  - intros. eapply delaydist_ok; eauto.
Qed.
Lemma sddelay_ok : forall p g d x s, ready p g d s ->
  ext s (fst (q_sddelay C g d x s)) /\ snd (q_sddelay C g d x s) = p_sddelay C p d x.
Proof.
  intros p g d x s R. apply (cached_grp p g d (GSDDelay x)); auto.
  rewrite (proj2 (proj2 R)).
  apply (run_ext _ _ _ (fun q => match q with inl x => p_delaydist C d x | inr x => p_edelay C p d x end)
           (ready p g d)); auto.
  - intros; eapply ready_ext; eauto.
  - intros [y|y] s1 R1; [eapply delaydist_ok; eauto|apply edelay_ok; auto].
Qed.

Lemma grp_ok : forall p g d q s, ready p g d s ->
  ext s (fst (q_grp C g d q s)) /\ snd (q_grp C g d q s) = p_grp C p d q.
Proof.
  intros p g d q s R. destruct q; cbn [q_grp p_grp].
  - apply ecost_ok; auto.
  - apply sdcost_ok; auto.
  - apply edelay_ok; auto.
  - apply sddelay_ok; auto.
  - apply (cached_grp p g d GAnnual); auto. rewrite (proj2 (proj2 R)).
    apply (run_ext _ _ _ (p_ecost C p d) (ready p g d)); auto.
    + intros; eapply ready_ext; eauto.
    + intros; apply ecost_ok; auto.
  - apply (cached_grp p g d (GLambdaCost x)); auto. rewrite (proj2 (proj2 R)).
    apply (run_ext _ _ _ (fun q => match q with inl x => p_ecost C p d x | inr x => p_sdcost C p d x end)
             (ready p g d)); auto.
    + intros; eapply ready_ext; eauto.
    + intros [y|y] s1 R1; [apply ecost_ok; auto|apply sdcost_ok; auto].
  - eapply costdist_ok; eauto.
  - eapply delaydist_ok; eauto.
  - apply (cached_grp p g d GRate); auto. rewrite (proj2 (proj2 R)). split; [apply ext_refl|reflexivity].
Qed.

(** A state in which several groups are as given. *)
Definition readies p gs s : Prop :=
  Frs s /\ settings s = p /\ forall g d, In (g, d) gs -> grp_of s g = Some d.

Lemma readies_ext : forall p gs s s', ext s s' -> readies p gs s -> readies p gs s'.
Proof.
  intros p gs s s' H [H1 [H2 H3]]. pose proof (ext_cch _ _ H) as Hc. split; [|split].
  - eapply ext_frs; eauto.
  - rewrite (cch_settings _ _ Hc). auto.
  - intros g d I. rewrite (grp_of_eq s s') by apply Hc. auto.
Qed.

Lemma all_ok : forall p gs x s, readies p gs s ->
  ext s (fst (q_all C gs x s)) /\ snd (q_all C gs x s) = p_all C p (map snd gs) x.
Proof.
  intros p gs. induction gs as [|[g d] r IH]; intros x s R; cbn [q_all].
  - split; [apply ext_refl|reflexivity].
  - assert (R0 : ready p g d s).
    { destruct R as [H1 [H2 H3]]. split; [auto|split; [|auto]]. apply H3. left; auto. }
    destruct (ecost_ok p g d x s R0) as [H1 H2]. destruct (q_ecost C g d x s) as [s1 e]. cbn in H1, H2.
    destruct (sdcost_ok p g d x s1 (ready_ext _ _ _ _ _ H1 R0)) as [H3 H4].
    destruct (q_sdcost C g d x s1) as [s2 sd]. cbn in H3, H4.
    assert (R2 : readies p r s2).
    { eapply readies_ext; [exact H3|]. eapply readies_ext; [exact H1|].
      destruct R as [Q1 [Q2 Q3]]. split; [auto|split; [auto|]]. intros; apply Q3; right; auto. }
    destruct (IH x s2 R2) as [H5 H6]. destruct (q_all C r x s2) as [s3 l]. cbn in H5, H6.
    cbn. split.
    + eapply ext_trans; [exact H1|]. eapply ext_trans; [exact H3|exact H5].
    + subst. reflexivity.
Qed.

Lemma seq_readies : forall s t gs, Frs s ->
  sequence (map (grp_entry s) (groups s t)) = Some gs -> readies (settings s) gs s.
Proof.
  intros s t gs H E. split; [auto|split; [auto|]]. eapply sequence_grps; eauto.
Qed.

(** ** Freshness along a history *)

Lemma frs_query : forall q s, Frs s -> Frs (fst (do_query C q s)).
Proof.
  intros q s Hf.
  assert (W : forall r : state * V, Frs (fst r) ->
            Frs (fst (let (s', v) := r in (s', Some v)))) by (intros [? ?]; auto).
  assert (K : forall k f, lg k = false -> Frs (fst (f s)) -> Frs (fst (cached C k f s))).
  { intros k f G H. unfold cached. destruct (cache s k); [auto|].
    destruct (f s) as [s' v]. cbn in *. intros k' v'. cbn.
    destruct (ckey_eq C k' k) as [->|]; [|intros Q; eapply correct_cch; [apply cch_cput|apply H; auto]].
    intros _. destruct k; try discriminate; exact I. }
  destruct q; cbn [do_query].
  - destruct (im_of s (Some i)) as [[[f c] d]|]; [|auto]. apply W, K; auto.
  - destruct (im_of s (Some i)) as [[[f c] d]|]; [|auto]. apply W, K; auto.
  - destruct (edp_of s (Some e)) as [d|] eqn:E; [|auto]. apply W.
    eapply ext_frs; [|exact Hf].
    eapply (cached_ext (KLambda e x)) with (v := c_lambda C (settings s) d x); auto.
    + intros w [d' [E' ->]]. congruence.
    + exists d. auto.
    + intros _. split; [apply ext_refl|reflexivity].
  - destruct (grp_of s g) as [d|] eqn:E; [|auto]. apply W. eapply ext_frs; [|exact Hf].
    eapply grp_ok. repeat split; auto.
  - destruct (node_of s t) as [[]|]; auto. destruct (str_im s t); auto.
    destruct (sequence _) as [gs|] eqn:Es; auto. apply W, K; auto.
    eapply ext_frs; [|exact Hf].
    apply (run_ext _ _ _ (p_all C (settings s) (map snd gs)) (readies (settings s) gs)).
    + intros; eapply readies_ext; eauto.
    + intros; apply all_ok; auto.
    + eapply seq_readies; eauto.
  - destruct (node_of s t) as [[]|]; auto. destruct (str_im s t); auto.
    destruct (sequence _) as [gs|] eqn:Es; auto. apply W.
    eapply ext_frs; [|exact Hf].
    apply (run_ext _ _ _ (p_all C (settings s) (map snd gs)) (readies (settings s) gs)).
    + intros; eapply readies_ext; eauto.
    + intros; apply all_ok; auto.
    + eapply seq_readies; eauto.
Qed.

(** Registering pointers of a new object touches nothing else. *)
Lemma register_ptr : forall sl o s sl', sl' <> sl -> ptr (register sl o s) sl' = ptr s sl'.
Proof. intros. unfold register. cbn. apply us_other. auto. Qed.

Lemma frs_shr : forall s s', shr s s' -> Frs s -> Frs s'.
Proof.
  intros s s' H Hf k v E. eapply correct_cch; [apply shr_cch; eauto|]. apply Hf.
  apply (shr_cache _ _ H). auto.
Qed.

Lemma frs_setter : forall past past' s s1 i n n', Lnk past s -> Lnk past' (notify i (set_node_of (upd (node_of s) i (Some n')) s1)) ->
  shr s s1 -> node_of s i = Some n -> kd (Some n) = 3 -> kd (Some n') = 3 -> Frs s ->
  Frs (notify i (set_node_of (upd (node_of s) i (Some n')) s1)).
Proof.
  intros past past' s s1 i n n' L L' Hs Hi Hk Hk' Hf.
  set (s2 := set_node_of (upd (node_of s) i (Some n')) s1) in *.
  assert (T2 : typed s2).
  { intros o sl I. unfold s2 in *. cbn in I |- *. rewrite (shr_rep _ _ Hs) in I.
    destruct (lnk_typed _ _ L o sl I) as [T1 T2]. unfold upd.
    split; [destruct (Nat.eqb_spec o i)|destruct (Nat.eqb_spec (owner sl) i)]; subst; auto; congruence. }
  destruct (notify_spec i s2 T2) as [N1 N2].
  assert (Hc : forall k v, cache (notify i s2) k = Some v -> cache s k = Some v).
  { intros k v E. apply (shr_cache _ _ N1) in E. apply (shr_cache _ _ Hs). exact E. }
  assert (Hr : rep s2 = rep s) by apply (shr_rep _ _ Hs).
  eapply frs_frame with (s := s); eauto.
  - rewrite (shr_settings _ _ N1). apply (shr_settings _ _ Hs).
  - intros sl k v _ _ _. rewrite (shr_ptr _ _ N1). cbn. rewrite (shr_ptr _ _ Hs). auto.
  - intros sl k v a E G Hh Ea. rewrite (shr_node _ _ N1). cbn. unfold upd.
    destruct (Nat.eqb_spec a i) as [->|]; [|auto]. exfalso.
    rewrite (N2 sl k) in E; [discriminate| |rewrite Hr; auto].
    rewrite Hr. apply (lnk_clients _ _ L). auto.
  - intros k v E G. rewrite (shr_node _ _ N1). cbn. unfold upd.
    destruct (Nat.eqb_spec (kowner k) i) as [Q|]; [|auto]. exfalso.
    apply Hc, Hf in E. apply correct_kind in E; auto. rewrite Q, Hi in E. rewrite Hk in E.
    destruct k; discriminate.
Qed.

Lemma str_unused : forall past s t, Lnk past s -> kd (node_of s t) = 8 -> forall sl, ptr s sl <> Some t.
Proof.
  intros past s t L K sl E. apply (l_typed _ _ L) in E. destruct E as [E _]. rewrite K in E.
  destruct sl; discriminate.
Qed.

Lemma frs_str : forall past past' s s' t, Lnk past s -> Lnk past' s' -> Frs s ->
  kd (node_of s t) = 8 -> settings s' = settings s -> cache s' = cache s -> ptr s' = ptr s ->
  (forall a, a <> t -> node_of s' a = node_of s a) -> Frs s'.
Proof.
  intros past past' s s' t L L' Hf K St Ca Pt Nd.
  eapply frs_frame with (s := s); eauto.
  - rewrite Ca; auto.
  - intros. rewrite Pt; auto.
  - intros sl k v a _ _ _ E. apply Nd. intros ->. exact (str_unused past s t L K sl E).
  - intros k v E G. apply Nd. intros Q. rewrite Ca in E. apply Hf in E. apply correct_kind in E; auto.
    rewrite Q, K in E. destruct k; discriminate.
Qed.

Lemma frs_step : forall past s op, Lnk past s -> careful_op s past op -> Frs s ->
  (forall p, op <> SetSettings p) -> Frs (fst (gstep C s op)).
Proof.
  intros past s op L Hc Hf Hst.
  pose proof (lnk_step C past s op L Hc) as L'.
  destruct op; cbn [gstep past_after] in *;
    try (destruct (is_det s mu && is_det s sigma); [|exact Hf]);
    try (destruct (is_det s f); [|exact Hf]);
    try (destruct (is_im s base && is_prob s dep && is_prob s second); [|exact Hf]);
    try (destruct (is_im s base && is_prob s dep); [|exact Hf]);
    try (destruct (is_edp s e && is_frag s f && opt_loss s cost && opt_loss s delay); [|exact Hf]);
    try solve [
      eapply frs_new with (s := s); [exact L|exact L'|exact Hf|try reflexivity|try reflexivity| |];
      [intros sl Hn; cbn [fst]; rewrite ?register_ptr by (intros ->; apply Hn; reflexivity); reflexivity
      |intros a0 Hn; cbn; apply upd_other; auto]].
  - (* NewGrp *)
    eapply frs_new with (s := s); [exact L|exact L'|exact Hf| | | |].
    + destruct cost, delay; reflexivity.
    + destruct cost, delay; reflexivity.
    + intros sl Hn. destruct cost, delay; cbn [fst];
        rewrite ?register_ptr by (intros ->; apply Hn; reflexivity); reflexivity.
    + intros a' Hn. destruct cost, delay; cbn; apply upd_other; auto.
  - destruct (node_of s i) as [[]|] eqn:E; try exact Hf. cbn [fst] in *.
    eapply frs_setter with (s := s); [exact L|exact L'|apply shr_wipe|exact E|reflexivity|reflexivity|exact Hf].
  - destruct (node_of s i) as [[]|] eqn:E; try exact Hf. cbn [fst] in *.
    eapply frs_setter with (s := s); [exact L|exact L'|apply shr_wipe|exact E|reflexivity|reflexivity|exact Hf].
  - (* Replace *)
    destruct (same_type s o o') eqn:E; [|exact Hf]. cbn [fst] in *.
    cbn in Hc. destruct Hc as (H1 & H2 & H3).
    destruct (lnk_replace past s o o' L (same_type_kd _ _ _ E) H1 H2 H3)
      as (_ & R1 & R2 & R3 & R4 & R5 & R6 & R7 & R8).
    eapply frs_frame with (s := s); eauto.
    + intros sl k v Ek G Hh. rewrite R7. destruct (ptr s sl) as [x|] eqn:Ep; auto.
      destruct (Nat.eqb_spec x o) as [->|]; auto. rewrite (R8 sl k Ep Hh) in Ek. discriminate.
    + intros. rewrite R2. auto.
    + intros. rewrite R2. auto.
  - (* Destroy *)
    destruct (node_of s o) as [n|] eqn:E; [|exact Hf].
    destruct (referenced s o) eqn:Er; [exact Hf|]. cbn [fst] in *.
    destruct (lnk_destroy past s o n L E Hc Er) as (_ & R1 & R2 & R3 & R4 & R5 & R6).
    pose proof (referenced_false _ _ _ L Er) as Hn.
    assert (Hk : forall k v, cache (release o (fold_left unregister (dtor_slots s o) s)) k = Some v ->
              kowner k <> o /\ cache s k = Some v).
    { intros k v. rewrite R5. destruct (Nat.eqb_spec (kowner k) o); [discriminate|auto]. }
    eapply frs_frame with (s := s); eauto.
    + intros k v Q. apply Hk in Q. tauto.
    + intros sl k v Ek G Hh. rewrite R6. destruct (Nat.eqb_spec (owner sl) o) as [Q|]; auto.
      exfalso. apply Hk in Ek. destruct Ek as [Ek _]. apply Ek.
      rewrite <- Q. apply clears_owner. apply (hit_unused past s); auto. rewrite Q. auto.
    + intros sl k v a Ek G Hh Ea. rewrite R3. destruct (Nat.eqb_spec a o) as [->|]; auto.
      exfalso. eapply Hn; eauto.
    + intros k v Ek G. rewrite R3. apply Hk in Ek. destruct (Nat.eqb_spec (kowner k) o); [tauto|auto].
  - (* AddGrp *)
    destruct (is_str s t && is_grp s g); [|exact Hf].
    assert (A : forall b : bool, fst (let (s', ok) := do_add t g s in (s', if ok then @Done V else Thrown)) = fst (do_add t g s)).
    { intros _. destruct (do_add t g s); auto. }
    rewrite (A true) in *. clear A.
    assert (B : settings (fst (do_add t g s)) = settings s /\ node_of (fst (do_add t g s)) = node_of s /\
      (forall k v, cache (fst (do_add t g s)) k = Some v -> cache s k = Some v) /\
      (forall sl, tk sl <> 7 -> is_im_slot sl = false -> ptr (fst (do_add t g s)) sl = ptr s sl)).
    { unfold do_add. set (s1 := match entries s t, im_of_grp s g with
             | [], Some i => register (SIm t) i s
             | _, _ => s end).
      assert (B1 : settings s1 = settings s /\ node_of s1 = node_of s /\ cache s1 = cache s /\
         forall sl, is_im_slot sl = false -> ptr s1 sl = ptr s sl).
      { unfold s1. destruct (entries s t); [|auto]. destruct (im_of_grp s g); [|auto].
        repeat split; auto. intros sl Hn. apply register_ptr. intros ->; discriminate. }
      destruct B1 as (B1 & B2 & B3 & B4).
      destruct (opt_eqb _ _); cbn [fst].
      - split; [exact B1|]. split; [exact B2|]. split.
        + intros k v. cbn. destruct k; try (rewrite B3; auto; fail).
          destruct (t0 =? t); [discriminate|]. rewrite B3. auto.
        + intros sl Hn1 Hn2. cbn. rewrite us_other; [apply B4; auto|]. intros ->. apply Hn1. reflexivity.
      - split; [auto|]. split; [auto|]. split; [rewrite B3; auto|]. auto. }
    destruct B as (B1 & B2 & B3 & B4).
    eapply frs_frame with (s := s); eauto.
    + intros sl k v Ek G Hh. apply B4.
      * intros K. destruct sl; try discriminate K. inversion Hh as [? ? Q|? ? ? Q]; subst; [|discriminate].
        destruct k; try discriminate G; discriminate Q.
      * destruct sl; auto. exfalso. inversion Hh as [? ? Q|? ? ? Q]; subst; [|discriminate].
        destruct k; try discriminate G; discriminate Q.
    + intros. rewrite B2. auto.
    + intros. rewrite B2. auto.
  - destruct (is_str s t) eqn:E; [|exact Hf]. destruct (is_grp s g); [|exact Hf]. cbn [andb fst] in *.
    eapply frs_str with (t := t) (s := s); eauto. apply is_kd; auto.
  - destruct (node_of s t) as [[]|] eqn:E; try exact Hf. cbn [fst] in *.
    eapply frs_str with (t := t) (s := s); eauto; [rewrite E; auto|].
    intros a Ha. cbn. apply upd_other; auto.
  - destruct (node_of s t) as [[]|] eqn:E; try exact Hf. cbn [fst] in *.
    eapply frs_str with (t := t) (s := s); eauto; [rewrite E; auto|].
    intros a Ha. cbn. apply upd_other; auto.
  - exfalso. eapply Hst; eauto.
  - intros k v. cbn. discriminate.
  - pose proof (frs_query q s Hf) as H. destruct (do_query C q s). exact H.
Qed.

Lemma frs_st0 : forall p, Frs (st0 p).
Proof. intros p k v. cbn. discriminate. Qed.

Lemma frs_wiped : forall s, Frs (wipe (fun _ => true) s).
Proof. intros s k v. cbn. discriminate. Qed.

(** ** Histories *)

Definition after s (h : list (@gop X P)) : state := fold_left (fun s op => fst (gstep C s op)) h s.

Lemma careful_app : forall h1 h2 s past, careful_from C s past (h1 ++ h2) <->
  careful_from C s past h1 /\ careful_from C (after s h1) (fold_left past_after h1 past) h2.
Proof.
  induction h1 as [|op r IH]; intros; cbn; [tauto|]. rewrite IH. tauto.
Qed.

Lemma settled_app : forall (h : list (@gop X P)) op, settled (h ++ [op]) = settled_step (settled h) op.
Proof. intros. unfold settled. rewrite fold_left_app. auto. Qed.

Theorem inv : forall p h, careful C p h ->
  exists past, Lnk past (gafter C p h) /\ (settled h = true -> Frs (gafter C p h)).
Proof.
  intros p h Hc.
  enough (Lnk (fold_left past_after h []) (gafter C p h) /\ (settled h = true -> Frs (gafter C p h)))
    by eauto.
  revert Hc. induction h as [|op r IH] using rev_ind; intros Hc.
  - cbn. split; [apply lnk_st0|]. intros _. apply frs_st0.
  - unfold careful in Hc. apply careful_app in Hc. destruct Hc as [H1 H2].
    destruct (IH H1) as [L Hf]. destruct H2 as [H2 _].
    change (after (st0 p) r) with (gafter C p r) in H2.
    unfold gafter in *. rewrite !fold_left_app. cbn [fold_left].
    split; [apply lnk_step; auto|]. rewrite settled_app.
    destruct op; intros Hs; try (eapply frs_step; [exact L|exact H2|exact (Hf Hs)|intros; discriminate]);
      try discriminate Hs.
    apply frs_wiped.
Qed.

(** The answers. *)
Lemma query_current : forall s q v, Frs s -> snd (do_query C q s) = Some v ->
  (match q with QLambda _ _ | QGrp _ _ | QTotal _ _ => True | _ => False end) ->
  current C s q v.
Proof.
  intros s q v Hf E Hq.
  assert (W : forall (r : state * V) v, snd (let (s', v) := r in (s', Some v)) = Some v -> snd r = v).
  { intros [? ?] w Q. inversion Q. auto. }
  destruct q; try tauto; cbn [do_query current] in *.
  - destruct (edp_of s (Some e)) as [d|] eqn:Ed; [|discriminate]. apply W in E.
    exists d. split; [apply edp_iff; auto|]. rewrite <- E.
    apply cached_ext; auto.
    + intros w [d' [E' ->]]. congruence.
    + exists d. auto.
    + intros _. split; [apply ext_refl|reflexivity].
  - destruct (grp_of s g) as [d|] eqn:Ed; [|discriminate]. apply W in E.
    exists d. split; [apply grp_iff; auto|]. rewrite <- E. eapply grp_ok. repeat split; auto.
  - destruct (node_of s t) as [[]|] eqn:En; try discriminate.
    destruct (str_im s t) as [i|] eqn:Ei; [|discriminate].
    destruct (sequence _) as [gs|] eqn:Es; [|discriminate]. apply W in E.
    exists rebuild, demolition, i, (map snd gs). split; [auto|]. split; [apply str_im_iff; auto|].
    split; [apply grps_iff; eauto|]. rewrite <- E.
    apply (run_ext _ _ _ (p_all C (settings s) (map snd gs)) (readies (settings s) gs)).
    + intros; eapply readies_ext; eauto.
    + intros; apply all_ok; auto.
    + eapply seq_readies; eauto.
Qed.

End Proofs.
