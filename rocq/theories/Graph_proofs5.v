(** Proofs about the object graph: the rates of measures and the annual cost of
    structures along quiet stretches. *)

Require Import List Arith Bool Lia.
From Verif Require Import Replaceable Replaceable_proofs Graph Graph_spec.
From Verif Require Import Graph_proofs Graph_proofs2 Graph_proofs3 Graph_proofs4.
Import ListNotations.

Section Proofs.

Context {X V P : Type}.
Variable C : calcs X V P.
Notation state := (@st X V P).
Implicit Types s : state.

(** ** Group queries leave the other caches alone *)

Definition keep s s' : Prop := forall k, lg k = false -> cache s' k = cache s k.

Lemma keep_refl : forall s, keep s s.
Proof. intros s k _. auto. Qed.
Lemma keep_trans : forall a b c, keep a b -> keep b c -> keep a c.
Proof. intros a b c H1 H2 k G. rewrite H2, H1; auto. Qed.

Lemma keep_cached : forall k f s, lg k = true -> keep s (fst (f s)) -> keep s (fst (cached C k f s)).
Proof.
  intros k f s G H. unfold cached. destruct (cache s k); [apply keep_refl|].
  destruct (f s) as [s' v]. cbn in *. intros k' G'. cbn.
  destruct (ckey_eq C k' k) as [->|]; [congruence|]. apply H. auto.
Qed.

Lemma keep_run : forall Q A (ask : Q -> state -> state * A) (c : comp V Q A) s,
  (forall q s, keep s (fst (ask q s))) -> keep s (fst (run ask c s)).
Proof.
  intros Q A ask c. induction c as [v|q k IH]; intros s H; cbn; [apply keep_refl|].
  pose proof (H q s) as H1. destruct (ask q s) as [s' a]. cbn in H1.
  eapply keep_trans; [exact H1|]. apply IH. exact H.
Qed.

Lemma keep_costdist : forall g d x s, keep s (fst (q_costdist C g d x s)).
Proof. intros. apply keep_cached; auto. apply keep_refl. Qed.
Lemma keep_delaydist : forall g d x s, keep s (fst (q_delaydist C g d x s)).
Proof. intros. apply keep_cached; auto. apply keep_refl. Qed.
Lemma keep_ecost : forall g d x s, keep s (fst (q_ecost C g d x s)).
Proof. intros. apply keep_cached; auto. apply keep_run. intros; apply keep_costdist. Qed.
Lemma keep_sdcost : forall g d x s, keep s (fst (q_sdcost C g d x s)).
Proof.
  intros. apply keep_cached; auto. apply keep_run. intros [y|y] s1; [apply keep_costdist|apply keep_ecost].
Qed.
Lemma keep_edelay : forall g d x s, keep s (fst (q_edelay C g d x s)).
Proof. intros. apply keep_cached; auto. apply keep_run. intros; apply keep_delaydist. Qed.
Lemma keep_sddelay : forall g d x s, keep s (fst (q_sddelay C g d x s)).
Proof.
  intros. apply keep_cached; auto. apply keep_run. intros [y|y] s1; [apply keep_delaydist|apply keep_edelay].
Qed.
Lemma keep_grp : forall g d q s, keep s (fst (q_grp C g d q s)).
Proof.
  intros g d q s. destruct q; cbn [q_grp].
  - apply keep_ecost.
  - apply keep_sdcost.
  - apply keep_edelay.
  - apply keep_sddelay.
  - apply keep_cached; auto. apply keep_run. intros; apply keep_ecost.
  - apply keep_cached; auto. apply keep_run. intros [y|y] s1; [apply keep_ecost|apply keep_sdcost].
  - apply keep_costdist.
  - apply keep_delaydist.
  - apply keep_cached; auto. apply keep_refl.
Qed.
Lemma keep_all : forall gs x s, keep s (fst (q_all C gs x s)).
Proof.
  induction gs as [|[g d] r IH]; intros x s; cbn [q_all]; [apply keep_refl|].
  pose proof (keep_ecost g d x s) as H1. destruct (q_ecost C g d x s) as [s1 e].
  pose proof (keep_sdcost g d x s1) as H2. destruct (q_sdcost C g d x s1) as [s2 sd].
  pose proof (IH x s2) as H3. destruct (q_all C r x s2) as [s3 l]. cbn in *.
  eapply keep_trans; [exact H1|]. eapply keep_trans; [exact H2|exact H3].
Qed.

(** ** The other figures *)

Definition correct2 s (k : ckey X) (v : V) : Prop :=
  match k with
  | KCollapse i => exists d, im_of s (Some i) = Some d /\
      v = c_collapse C (settings s) (fst (fst d)) (snd (fst d))
  | KDemolition i => exists d, im_of s (Some i) = Some d /\
      v = c_demolition C (settings s) (fst (fst d)) (snd (fst d)) (snd d)
  | KStr t => exists r d i gs, node_of s t = Some (NStr r d) /\ str_im s t = Some i /\
      sequence (map (grp_entry s) (groups s t)) = Some gs /\
      v = pure (p_all C (settings s) (map snd gs)) (c_structure C (settings s) (length gs) i r d)
  | _ => True
  end.

Lemma correct2_exists : forall s k v, lg k = false -> correct2 s k v -> node_of s (kowner k) <> None.
Proof.
  intros s k v G H. destruct k; try discriminate; cbn in *.
  - destruct H as [d [E _]]. destruct (node_of s i); discriminate.
  - destruct H as [d [E _]]. destruct (node_of s i); discriminate.
  - destruct H as (r & d & i & gs & E & _). congruence.
Qed.

Lemma correct2_cch : forall s s' k v, cch s s' -> correct2 s k v -> correct2 s' k v.
Proof.
  intros s s' k v H.
  assert (Hi : forall o, im_of s' o = im_of s o).
  { intros o. unfold im_of, det_of. rewrite (cch_node _ _ H), (cch_ptr _ _ H). auto. }
  destruct k; cbn [correct2]; auto; rewrite ?Hi, (cch_settings _ _ H); auto.
  unfold str_im, groups. rewrite (cch_node _ _ H), (cch_ptr _ _ H), (cch_entries _ _ H).
  assert (Hg : forall l, map (grp_entry s') l = map (grp_entry s) l).
  { intros l. apply map_ext. intros [g|]; auto. cbn. rewrite (grp_of_eq s s') by apply H. auto. }
  rewrite Hg.
  assert (Ht : match ptr s (SIm t) with
      | Some i0 => match im_of s' (Some i0) with Some d0 => Some (Some d0) | None => None end
      | None => Some None end = match ptr s (SIm t) with
      | Some i0 => match im_of s (Some i0) with Some d0 => Some (Some d0) | None => None end
      | None => Some None end) by (destruct (ptr s (SIm t)); auto; rewrite Hi; auto).
  rewrite Ht. auto.
Qed.

Definition okk s k : Prop := forall v, cache s k = Some v -> correct2 s k v.

(** Queries keep figures right, and answer rightly. *)
Lemma okk_query : forall q s k, lg k = false -> (match k with KStr _ => Frs C s | _ => True end) ->
  okk s k -> okk (fst (do_query C q s)) k.
Proof.
  intros q s k G Hf Hk.
  assert (Z : forall r : state * V, fst (let (s', v) := r in (s', Some v)) = fst r) by (intros [? ?]; auto).
  assert (Kp : forall s', cch s s' -> keep s s' -> okk s' k).
  { intros s' H1 H2 v E. rewrite H2 in E by auto. eapply correct2_cch; eauto. }
  assert (Kc : forall k0 f, lg k0 = false -> cch s (fst (f s)) -> keep s (fst (f s)) ->
            (k0 = k -> correct2 s k (snd (f s))) -> okk (fst (cached C k0 f s)) k).
  { intros k0 f G0 H1 H2 H3. unfold cached. destruct (cache s k0) eqn:E0; [exact Hk|].
    destruct (f s) as [s' w]. cbn in *. intros v. cbn. destruct (ckey_eq C k k0) as [->|].
    - intros Q. inversion Q; subst. eapply correct2_cch; [|apply H3; auto].
      eapply cch_trans; [exact H1|apply cch_cput].
    - rewrite H2 by auto. intros Q. eapply correct2_cch; [|apply Hk; exact Q].
      eapply cch_trans; [exact H1|apply cch_cput]. }
  destruct q; cbn [do_query].
  - destruct (im_of s (Some i)) as [[[f c] d]|] eqn:E; [|exact Hk]. rewrite Z. apply Kc; auto.
    + apply cch_refl.
    + apply keep_refl.
    + intros <-. exists (f, c, d). auto.
  - destruct (im_of s (Some i)) as [[[f c] d]|] eqn:E; [|exact Hk]. rewrite Z. apply Kc; auto.
    + apply cch_refl.
    + apply keep_refl.
    + intros <-. exists (f, c, d). auto.
  - destruct (edp_of s (Some e)) as [d|]; [|exact Hk]. rewrite Z. apply Kp.
    + apply cch_cached. intros; apply cch_refl.
    + apply keep_cached; auto. apply keep_refl.
  - destruct (grp_of s g) as [d|]; [|exact Hk]. rewrite Z. apply Kp; [apply cch_grp|apply keep_grp].
  - destruct (node_of s t) as [[]|] eqn:En; auto. destruct (str_im s t) as [i|] eqn:Ei; auto.
    destruct (sequence _) as [gs|] eqn:Es; auto. rewrite Z. apply Kc; auto.
    + apply cch_run. intros; apply cch_all.
    + apply keep_run. intros; apply keep_all.
    + intros <-. exists rebuild, demolition, i, gs. split; [auto|]. split; [auto|]. split; [auto|].
      apply (run_ext C _ _ _ (p_all C (settings s) (map snd gs)) (readies C (settings s) gs)).
      * intros; eapply readies_ext; eauto.
      * intros; apply all_ok; auto.
      * eapply seq_readies; eauto.
  - destruct (node_of s t) as [[]|] eqn:En; auto. destruct (str_im s t) as [i|] eqn:Ei; auto.
    destruct (sequence _) as [gs|] eqn:Es; auto. rewrite Z. apply Kp.
    + apply cch_run. intros; apply cch_all.
    + apply keep_run. intros; apply keep_all.
Qed.

Lemma answer_right : forall s q k v, okk s k -> snd (do_query C q s) = Some v ->
  match q with
  | QCollapse i => k = KCollapse i | QDemolition i => k = KDemolition i
  | QAnnual t => k = KStr t /\ Frs C s | _ => False
  end -> current C s q v.
Proof.
  intros s q k v Hk E Hq.
  assert (W : forall (r : state * V) v, snd (let (s', v) := r in (s', Some v)) = Some v -> snd r = v).
  { intros [? ?] w Q. inversion Q. auto. }
  destruct q; try tauto; cbn [do_query current] in *.
  - subst. destruct (im_of s (Some i)) as [[[f c] d]|] eqn:Ei; [|discriminate]. apply W in E.
    unfold cached in E. destruct (cache s (KCollapse i)) as [w|] eqn:Ec; cbn in E; subst.
    + destruct (Hk v Ec) as [d' [E' ->]]. exists d'. split; [apply im_iff|]; auto.
    + exists (f, c, d). split; [apply im_iff|]; auto.
  - subst. destruct (im_of s (Some i)) as [[[f c] d]|] eqn:Ei; [|discriminate]. apply W in E.
    unfold cached in E. destruct (cache s (KDemolition i)) as [w|] eqn:Ec; cbn in E; subst.
    + destruct (Hk v Ec) as [d' [E' ->]]. exists d'. split; [apply im_iff|]; auto.
    + exists (f, c, d). split; [apply im_iff|]; auto.
  - destruct Hq as [-> Hf]. destruct (node_of s t) as [[]|] eqn:En; try discriminate.
    destruct (str_im s t) as [i|] eqn:Ei; [|discriminate].
    destruct (sequence _) as [gs|] eqn:Es; [|discriminate]. apply W in E.
    unfold cached in E. destruct (cache s (KStr t)) as [w|] eqn:Ec.
    + cbn in E. subst. destruct (Hk v Ec) as (r & d & i' & gs' & E1 & E2 & E3 & ->).
      exists r, d, i', (map snd gs'). split; [congruence|]. split; [apply str_im_iff; auto|].
      split; [apply grps_iff; eauto|]. rewrite map_length. auto.
    + exists rebuild, demolition, i, (map snd gs). split; [auto|]. split; [apply str_im_iff; auto|].
      split; [apply grps_iff; eauto|]. rewrite map_length.
      destruct (run_ext C _ _ (q_all C gs) (p_all C (settings s) (map snd gs)) (readies C (settings s) gs))
        with (c := c_structure C (settings s) (length gs) i rebuild demolition) (s := s) as [_ H].
      * intros; eapply readies_ext; eauto.
      * intros; apply all_ok; auto.
      * eapply seq_readies; eauto.
      * destruct (run _ _ s) as [s2 w]. cbn in *. congruence.
Qed.

(** ** One step *)

Lemma ptr_alive2 : forall past s sl o, Lnk past s -> ptr s sl = Some o -> owner sl <> fresh s.
Proof. intros past s sl o L E. apply (ptr_alive _ _ _ _ L) in E. lia. Qed.

(** The hazard function of an existing measure changes only when it is replaced. *)
Lemma im_step : forall past s op i d, Lnk past s -> Whole s -> careful_op s past op ->
  im_of s (Some i) = Some d -> node_of (fst (gstep C s op)) i <> None ->
  (forall o o', op = Replace o o' -> ptr s (SF i) <> Some o) ->
  exists d', im_of (fst (gstep C s op)) (Some i) = Some d' /\ fst (fst d') = fst (fst d) /\
    ((forall c, op <> SetCollapse i c) -> snd (fst d') = snd (fst d)) /\
    ((forall c, op <> SetDemolition i c) -> snd d' = snd d).
Proof.
  intros past s op i d L W Hc E Hn Hr.
  pose proof (step_changes C past s op L W Hc) as Ch.
  set (s' := fst (gstep C s op)) in *.
  unfold im_of in E. destruct (node_of s i) as [[]|] eqn:Ei; try discriminate.
  destruct (ptr s (SF i)) as [f|] eqn:Ef; [|discriminate]. cbn in E.
  destruct (node_of s f) as [[a| | | | | | | |]|] eqn:En; try discriminate. inversion E; subst; clear E.
  assert (Ep : ptr s' (SF i) = Some f).
  { destruct (ch_ptr _ _ _ _ Ch (SF i)) as [Q|[[Q _]|[(o & o' & Q & Q2 & _)|[(t & g & _ & Q & _)|[Q [Q2 Q3]]]]]].
    - congruence.
    - exfalso. eapply ptr_alive2; eauto.
    - exfalso. eapply Hr; eauto. congruence.
    - destruct Q; discriminate.
    - exfalso. apply Hn. exact Q3. }
  assert (Nf : node_of s' f = Some (NDet a)).
  { destruct (ch_node _ _ _ _ Ch f) as [Q|[[Q [Q2 _]]|[[Q [Q2 _]]|[(c & c' & d & _ & Q & Q')|[(c & d & d' & _ & Q & Q')|[(c & r & d & _ & Q & Q')|(c & r & d & _ & Q & Q')]]]]]]; congruence. }
  assert (Hi : exists c0 d0, node_of s' i = Some (NIM c0 d0) /\
     ((forall c, op <> SetCollapse i c) -> c0 = collapse) /\
     ((forall c, op <> SetDemolition i c) -> d0 = demolition)).
  { destruct (ch_node _ _ _ _ Ch i) as [Q|[[Q [Q2 _]]|[[Q [_ Q2]]|[(c & c' & d & Q0 & Q & Q')|[(c & d & d' & Q0 & Q & Q')|[(c & r & d & _ & Q & Q')|(c & r & d & _ & Q & Q')]]]]]]; try congruence.
    - rewrite Q, Ei. eauto 6.
    - exists c, d. split; auto. split; [intros H; exfalso; eapply H; eauto|]. congruence.
    - exists c, d. split; auto. split; [congruence|]. intros H; exfalso; eapply H; eauto. }
  destruct Hi as (c0 & d0 & Hi & H1 & H2).
  exists (a, c0, d0). unfold im_of. rewrite Hi, Ep. cbn [det_of]. rewrite Nf. cbn. auto.
Qed.

Lemma okk_collapse_step : forall past s op i, Lnk past s -> Whole s -> careful_op s past op ->
  quiet_collapse i s op -> okk s (KCollapse i) -> okk (fst (gstep C s op)) (KCollapse i).
Proof.
  intros past s op i L W Hc Hu Hk.
  destruct (match op with Query q => Some q | _ => None end) as [q|] eqn:Eq.
  { destruct op; try discriminate. inversion Eq; subst. cbn [gstep].
    pose proof (okk_query q s (KCollapse i) eq_refl I Hk) as H. destruct (do_query C q s). exact H. }
  pose proof (step_changes C past s op L W Hc) as Ch.
  set (s' := fst (gstep C s op)) in *. intros v E.
  destruct (ch_cache _ _ _ _ Ch _ _ E) as [E'|[q ->]]; [|discriminate].
  destruct (Hk v E') as [d [Ed ->]].
  assert (Ex : node_of s i <> None) by (unfold im_of in Ed; destruct (node_of s i); congruence).
  assert (Hn : node_of s' i <> None).
  { intros Q. rewrite (ch_dead _ _ _ _ Ch (KCollapse i) Ex Q) in E. discriminate. }
  destruct (im_step past s op i d L W Hc Ed Hn) as (d' & Ed' & H1 & H2 & H3).
  { intros o o' ->. exact Hu. }
  exists d'. split; [exact Ed'|]. rewrite H1.
  assert (Hnc : forall c, op <> SetCollapse i c).
  { intros c ->. rewrite (ch_setc _ _ _ _ Ch i c eq_refl) in E; [discriminate|].
    unfold im_of in Ed. destruct (node_of s i) as [[]|]; try discriminate; auto. }
  rewrite (H2 Hnc). destruct (ch_settings _ _ _ _ Ch) as [->|[p ->]]; auto. destruct Hu.
Qed.

Lemma okk_demolition_step : forall past s op i, Lnk past s -> Whole s -> careful_op s past op ->
  quiet_demolition i s op -> okk s (KDemolition i) -> okk (fst (gstep C s op)) (KDemolition i).
Proof.
  intros past s op i L W Hc Hu Hk.
  destruct (match op with Query q => Some q | _ => None end) as [q|] eqn:Eq.
  { destruct op; try discriminate. inversion Eq; subst. cbn [gstep].
    pose proof (okk_query q s (KDemolition i) eq_refl I Hk) as H. destruct (do_query C q s). exact H. }
  pose proof (step_changes C past s op L W Hc) as Ch.
  set (s' := fst (gstep C s op)) in *. intros v E.
  destruct (ch_cache _ _ _ _ Ch _ _ E) as [E'|[q ->]]; [|discriminate].
  destruct (Hk v E') as [d [Ed ->]].
  assert (Ex : node_of s i <> None) by (unfold im_of in Ed; destruct (node_of s i); congruence).
  assert (Hn : node_of s' i <> None).
  { intros Q. rewrite (ch_dead _ _ _ _ Ch (KDemolition i) Ex Q) in E. discriminate. }
  destruct (im_step past s op i d L W Hc Ed Hn) as (d' & Ed' & H1 & H2 & H3).
  { intros o o' ->. exact Hu. }
  exists d'. split; [exact Ed'|]. rewrite H1.
  assert (Hnc : forall c, op <> SetDemolition i c).
  { intros c ->. rewrite (ch_setd _ _ _ _ Ch i c eq_refl) in E; [discriminate|].
    unfold im_of in Ed. destruct (node_of s i) as [[]|]; try discriminate; auto. }
  rewrite (H3 Hnc), H2; [|intros c ->; apply Hu; reflexivity].
  destruct (ch_settings _ _ _ _ Ch) as [->|[p ->]]; auto. destruct Hu.
Qed.

(** ** Structures *)

(** The pointers a structure's cost depends on. *)
Definition fp s t (sl : slot) : Prop := (owner sl = t /\ live s sl) \/ feeds s t (owner sl).

Lemma fp_feeds : forall s t sl o, fp s t sl -> ptr s sl = Some o -> feeds s t o.
Proof.
  intros s t sl o [[H1 H2]|H] E; [eapply feeds_here; eauto|eapply feeds_next; eauto].
Qed.

Lemma feeds_alive : forall past s t o, Lnk past s -> feeds s t o -> o < fresh s /\ kd (node_of s o) <> 8.
Proof.
  intros past s t o L H.
  assert (Q : exists sl, ptr s sl = Some o) by (inversion H; eauto). destruct Q as [sl E].
  split; [apply (ptr_alive _ _ _ _ L) in E; tauto|]. intros K. eapply str_unused; eauto.
Qed.

Lemma told_hit : forall past s t o, Lnk past s -> told s t o ->
  exists sl, ptr s sl = Some o /\ hit (rep s) sl (@KStr X t).
Proof.
  intros past s t o L [[k E]|[i [E [->|E2]]]].
  - exists (SEntry t k). split; auto. apply hit_here. cbn. apply Nat.eqb_refl.
  - exists (SIm t). split; auto. apply hit_here. cbn. apply Nat.eqb_refl.
  - exists (SF i). split; auto. eapply (hit_next _ (SF i) (SIm t)); [reflexivity| |apply hit_here; cbn; apply (Nat.eqb_refl t)].
    apply (lnk_clients _ _ L). exact E.
Qed.

Lemma fp_steady : forall past s op t, Lnk past s -> Whole s -> careful_op s past op ->
  quiet_annual t s op -> node_of s t <> None ->
  cache (fst (gstep C s op)) (KStr t) <> None ->
  forall sl, fp s t sl ->
    ptr (fst (gstep C s op)) sl = ptr s sl /\
    forall a, ptr s sl = Some a -> node_of (fst (gstep C s op)) a = node_of s a.
Proof.
  intros past s op t L W Hc Hu Ht Hk sl Hf.
  pose proof (step_changes C past s op L W Hc) as Ch.
  assert (Rp : forall o o', op = Replace o o' -> told s t o -> fst (gstep C s op) = s).
  { intros o o' -> To. cbn [gstep] in *. destruct (same_type s o o') eqn:Es; auto. exfalso. apply Hk.
    destruct (told_hit _ _ _ _ L To) as [sl' [E Hh]]. cbn [fst].
    cbn in Hc. destruct Hc as (H1 & H2 & H3).
    apply (lnk_replace past s o o' L (same_type_kd _ _ _ Es) H1 H2 H3) with (sl := sl'); auto. }
  set (s' := fst (gstep C s op)) in *.
  assert (Htf : t <> fresh s).
  { intros ->. apply Ht. apply (l_alloc _ _ L). auto. }
  assert (Ho : owner sl = t \/ owner sl < fresh s /\ kd (node_of s (owner sl)) <> 8 /\ exists sl', ptr s sl' = Some (owner sl)).
  { destruct Hf as [[-> _]|H]; auto. right. destruct (feeds_alive _ _ _ _ L H). split; [auto|]. split; [auto|].
    inversion H; eauto. }
  split.
  - destruct (ch_ptr _ _ _ _ Ch sl) as [Q|[[Q _]|[(o & o' & Q & Q2 & Q3)|[(t' & g & Q & Q2 & Q3)|[Q [Q2 Q3]]]]]]; auto.
    + exfalso. destruct Ho as [Ho|[Ho _]]; [congruence|lia].
    + pose proof (fp_feeds _ _ _ _ Hf Q2) as Hfo. subst op. cbn in Hu.
      destruct Hu as [Hu|Hu]; [contradiction|]. rewrite (Rp o o' eq_refl Hu). auto.
    + exfalso. assert (owner sl = t') by (destruct Q2 as [->| ->]; auto).
      destruct Ho as [Ho|(_ & Ho & _)].
      * assert (t' = t) by congruence. apply Hk. apply (ch_add _ _ _ _ Ch t g); congruence.
      * subst op. cbn [gstep] in Q3. destruct (is_str s t') eqn:E1; [|discriminate].
        apply Ho. rewrite H. apply is_kd. auto.
    + exfalso. destruct Ho as [Ho|(_ & _ & [sl' Ho])]; [|eapply Q2; eauto].
      apply Hk. apply (ch_dead _ _ _ _ Ch); cbn; congruence.
  - intros a Ea. destruct (ch_node _ _ _ _ Ch a) as [Q|[[Q [Q2 _]]|[[Q [Q2 _]]|[(c & c' & d & Q0 & Q & Q')|[(c & d & d' & Q0 & Q & Q')|[(c & r & d & _ & Q & Q')|(c & r & d & _ & Q & Q')]]]]]]; auto.
    + exfalso. apply (ptr_alive _ _ _ _ L) in Ea. lia.
    + exfalso. eapply Q2; eauto.
    + exfalso. pose proof (fp_feeds _ _ _ _ Hf Ea) as Hfo. subst op. cbn in Hu.
      destruct Hu as [Hu|Hu]; [contradiction|]. apply Hk.
      apply (ch_set _ _ _ _ Ch a c (SIm t)); auto; [rewrite Q; auto|apply hit_here; cbn; apply Nat.eqb_refl].
    + exfalso. pose proof (fp_feeds _ _ _ _ Hf Ea) as Hfo. subst op. cbn in Hu.
      destruct Hu as [Hu|Hu]; [contradiction|]. apply Hk.
      apply (ch_set _ _ _ _ Ch a d (SIm t)); auto; [rewrite Q; auto|apply hit_here; cbn; apply Nat.eqb_refl].
    + exfalso. eapply str_unused; [exact L| |exact Ea]. rewrite Q; auto.
    + exfalso. eapply str_unused; [exact L| |exact Ea]. rewrite Q; auto.
Qed.

Lemma okk_annual_step : forall past s op t, Lnk past s -> Whole s -> careful_op s past op -> Frs C s ->
  quiet_annual t s op -> okk s (KStr t) -> okk (fst (gstep C s op)) (KStr t).
Proof.
  intros past s op t L W Hc Hf Hu Hk.
  destruct (match op with Query q => Some q | _ => None end) as [q|] eqn:Eq.
  { destruct op; try discriminate. inversion Eq; subst. cbn [gstep].
    pose proof (okk_query q s (KStr t) eq_refl Hf Hk) as H. destruct (do_query C q s). exact H. }
  pose proof (step_changes C past s op L W Hc) as Ch.
  intros v E. destruct (ch_cache _ _ _ _ Ch _ _ E) as [E'|[q ->]]; [|discriminate].
  destruct (Hk v E') as (r & d & i & gs & H1 & H2 & H3 & ->).
  assert (Ht : node_of s t <> None) by congruence.
  assert (Hs : cache (fst (gstep C s op)) (KStr t) <> None) by congruence.
  pose proof (fp_steady past s op t L W Hc Hu Ht Hs) as F.
  set (s' := fst (gstep C s op)) in *.
  assert (U : forall sl sl', fp s t sl -> ptr s sl = Some (owner sl') -> fp s t sl').
  { intros sl sl' Q1 Q2. right. eapply fp_feeds; eauto. }
  assert (U' : forall sl sl', fp s t sl -> ptr s sl = Some (owner sl') -> notifies sl' = true -> fp s t sl') by eauto.
  assert (Nt : node_of s' t = node_of s t).
  { destruct (ch_node _ _ _ _ Ch t) as [Q|[[Q [Q2 _]]|[[Q [Q2 Q3]]|[(c & c' & d0 & Q0 & Q & Q')|[(c & d0 & d' & Q0 & Q & Q')|[(c & r0 & d0 & Q0 & Q & Q')|(c & r0 & d0 & Q0 & Q & Q')]]]]]]; auto; try congruence.
    - exfalso. apply Hs. apply (ch_dead _ _ _ _ Ch); auto.
    - exfalso. subst op. apply Hu. auto.
    - exfalso. subst op. apply Hu. auto. }
  assert (Et : entries s' t = entries s t).
  { destruct (ch_entries _ _ _ _ Ch t) as [Q|[(g & Q & Q2)|[[g Q]|[Q Q2]]]]; auto; exfalso.
    - apply Hs. apply (ch_add _ _ _ _ Ch t g); auto.
    - subst op. apply Hu. auto.
    - apply Hs. apply (ch_dead _ _ _ _ Ch); auto. }
  assert (St : settings s' = settings s).
  { destruct (ch_settings _ _ _ _ Ch) as [Q|[p ->]]; auto. destruct Hu. }
  assert (Fi : fp s t (SIm t)) by (left; cbn; auto).
  assert (Im : str_im s' t = Some i).
  { unfold str_im in *. rewrite (proj1 (F _ Fi)). pose proof (im_frame s s' _ U' F (SIm t) Fi) as Q.
    rewrite (proj1 (F _ Fi)) in Q. destruct (ptr s (SIm t)) as [x|]; auto. rewrite Q. auto. }
  assert (Ge : forall k, In k (entries s t) -> grp_entry s' (ptr s' (SEntry t k)) = grp_entry s (ptr s (SEntry t k))).
  { intros k Ik. assert (Fk : fp s t (SEntry t k)) by (left; cbn; auto).
    destruct (F _ Fk) as [Q1 Q2]. rewrite Q1. destruct (ptr s (SEntry t k)) as [g|] eqn:Eg; auto.
    cbn. assert (Gg : grp_of s' g = grp_of s g); [|rewrite Gg; auto].
    unfold grp_of. rewrite (Q2 g eq_refl).
    rewrite (edp_ptr_frame s s' _ U' F (SEdp g)) by (eapply U; eauto).
    rewrite (frag_frame s s' _ F (SFrag g)) by (eapply U; eauto).
    rewrite (loss_frame s s' _ F (SCost g)) by (eapply U; eauto).
    rewrite (loss_frame s s' _ F (SDelay g)) by (eapply U; eauto). auto. }
  exists r, d, i, gs. split; [congruence|]. split; [auto|]. split.
  - rewrite <- H3. unfold groups. rewrite Et. rewrite !map_map. f_equal. apply map_ext_in. auto.
  - rewrite St. auto.
Qed.

(** ** Quiet histories *)

Lemma gafter_app : forall p h1 h2, gafter C p (h1 ++ h2) = after C (gafter C p h1) h2.
Proof. intros. unfold gafter. rewrite fold_left_app. auto. Qed.

Lemma settled_from : forall (h : list (@gop X P)) b, fold_left settled_step h b = true ->
  b = true \/ exists h1 h2, h = h1 ++ ClearAll :: h2 /\ fold_left settled_step h2 true = true.
Proof.
  induction h as [|op r IH]; intros b H; cbn in H; [auto|].
  destruct (IH _ H) as [Q|(h1 & h2 & -> & Q)].
  - destruct op; cbn in Q; auto; try discriminate. right. exists [], r. split; auto.
  - right. exists (op :: h1), h2. auto.
Qed.

Definition quiet_ok (ok : state -> @gop X P -> Prop) (R : state -> Prop) : Prop :=
  forall past s op, Lnk past s -> Whole s -> careful_op s past op -> ok s op -> R s -> R (fst (gstep C s op)).

Lemma quiet_run : forall ok R, quiet_ok ok R -> forall h s past, Lnk past s -> Whole s ->
  careful_from C s past h -> quiet C ok s h -> R s -> R (after C s h).
Proof.
  intros ok R HR. induction h as [|op r IH]; intros s past L W Hc Hq Hs; cbn; auto.
  destruct Hc as [H1 H2]. destruct Hq as [H3 H4].
  eapply IH; [apply lnk_step; eauto|eapply whole_step; eauto|exact H2|exact H4|eapply HR; eauto].
Qed.

Lemma inv_past : forall h s past, careful_from C s past h -> Lnk past s -> Whole s ->
  Lnk (fold_left past_after h past) (after C s h) /\ Whole (after C s h).
Proof.
  induction h as [|op r IH]; intros s past Hc L W; cbn; [auto|].
  destruct Hc as [H1 H2]. eapply IH; [exact H2|apply lnk_step; auto|eapply whole_step; eauto].
Qed.

Lemma rate_quiet : forall k clr ok p h, careful C p h -> quiet_since C clr ok p h ->
  quiet_ok ok (fun s => okk s k) ->
  (forall past s op, Lnk past s -> Whole s -> careful_op s past op -> clr s op ->
     cache (fst (gstep C s op)) k = None) ->
  okk (gafter C p h) k.
Proof.
  intros k clr ok p h Hc (h1 & h2 & -> & H1 & H2) HR Hclr.
  apply careful_app in Hc. destruct Hc as [Hc1 Hc2].
  destruct (inv_past h1 (st0 p) [] Hc1 (lnk_st0 p) (whole_st0 p)) as [L W].
  rewrite gafter_app. eapply quiet_run; eauto.
  destruct H1 as [->|(h0 & op & -> & Hop)]; [intros v; cbn; discriminate|].
  apply careful_app in Hc1. destruct Hc1 as [Hc0 [Hop2 _]].
  destruct (inv_past h0 (st0 p) [] Hc0 (lnk_st0 p) (whole_st0 p)) as [L0 W0].
  rewrite gafter_app. cbn [after fold_left]. intros v E. exfalso.
  change (after C (st0 p) h0) with (gafter C p h0) in *.
  unfold after in E. cbn in E.
  rewrite (Hclr _ _ _ L0 W0 Hop2 Hop) in E. discriminate.
Qed.

Lemma setter_done : forall s op i, (exists c, op = SetCollapse i c \/ op = SetDemolition i c) ->
  snd (gstep C s op) = Done -> kd (node_of s i) = 3.
Proof.
  intros s op i [c [->| ->]]; cbn [gstep]; destruct (node_of s i) as [[]|]; cbn; auto; discriminate.
Qed.

Lemma collapse_current : forall p h i, careful C p h ->
  quiet_since C (clears_collapse C i) (quiet_collapse i) p h ->
  okk (gafter C p h) (KCollapse i).
Proof.
  intros p h i Hc Hq. eapply rate_quiet; [exact Hc|exact Hq| |].
  - intros past s op L W Ho Hk. eapply okk_collapse_step; eauto.
  - intros past s op L W Ho [->|(c & -> & Hd)]; [reflexivity|].
    apply (ch_setc C _ _ _ (step_changes C past s _ L W Ho) i c eq_refl).
    eapply setter_done; [|exact Hd]; exists c; auto.
Qed.

Lemma demolition_current : forall p h i, careful C p h ->
  quiet_since C (clears_demolition C i) (quiet_demolition i) p h ->
  okk (gafter C p h) (KDemolition i).
Proof.
  intros p h i Hc Hq. eapply rate_quiet; [exact Hc|exact Hq| |].
  - intros past s op L W Ho Hk. eapply okk_demolition_step; eauto.
  - intros past s op L W Ho [->|(c & -> & Hd)]; [reflexivity|].
    apply (ch_setd C _ _ _ (step_changes C past s _ L W Ho) i c eq_refl).
    eapply setter_done; [|exact Hd]; exists c; auto.
Qed.

(** For structures freshness of the groups matters too. *)
Lemma quiet_annual_run : forall h s past t, Lnk past s -> Whole s -> Frs C s ->
  careful_from C s past h -> quiet C (quiet_annual t) s h -> okk s (KStr t) ->
  okk (after C s h) (KStr t).
Proof.
  induction h as [|op r IH]; intros s past t L W F Hc Hq Hs; cbn; auto.
  destruct Hc as [H1 H2]. destruct Hq as [H3 H4].
  eapply IH; [apply lnk_step; eauto|eapply whole_step; eauto| |exact H2|exact H4|eapply okk_annual_step; eauto].
  eapply frs_step; eauto. intros q ->. destruct H3.
Qed.

Lemma annual_current : forall p h t, careful C p h -> settled h = true ->
  quiet_since C (clears_annual C t) (quiet_annual t) p h ->
  okk (gafter C p h) (KStr t).
Proof.
  intros p h t Hc Hst (h1 & h2 & -> & H1 & H2).
  unfold settled in Hst. rewrite fold_left_app in Hst.
  destruct (settled_from _ _ Hst) as [Hs|(g1 & g2 & -> & Hs)].
  - (* settled before the stretch *)
    apply careful_app in Hc. destruct Hc as [Hc1 Hc2].
    destruct (inv_past h1 (st0 p) [] Hc1 (lnk_st0 p) (whole_st0 p)) as [L W].
    destruct (inv C p h1 Hc1) as [_ [_ F]].
    rewrite gafter_app. eapply quiet_annual_run; [exact L|exact W|apply F; exact Hs|exact Hc2|exact H2|].
    destruct H1 as [->|(h0 & op & -> & Hop)]; [intros v; cbn; discriminate|].
    apply careful_app in Hc1. destruct Hc1 as [Hc0 [Hop2 _]].
    destruct (inv_past h0 (st0 p) [] Hc0 (lnk_st0 p) (whole_st0 p)) as [L0 W0].
    change (after C (st0 p) h0) with (gafter C p h0) in *.
    rewrite gafter_app. intros v E. exfalso. unfold after in E. cbn in E.
    destruct Hop as [->|(g & -> & Hd)]; [discriminate E|].
    rewrite (ch_add C _ _ _ (step_changes C _ _ _ L0 W0 Hop2) t g eq_refl Hd) in E. discriminate.
  - (* settled by clearing within it *)
    replace (h1 ++ g1 ++ ClearAll :: g2) with ((h1 ++ g1 ++ [ClearAll]) ++ g2) in *
      by (rewrite <- !app_assoc; reflexivity).
    apply careful_app in Hc. destruct Hc as [Hc1 Hc2].
    destruct (inv_past _ (st0 p) [] Hc1 (lnk_st0 p) (whole_st0 p)) as [L W].
    assert (Q : forall k, cache (gafter C p (h1 ++ g1 ++ [ClearAll])) k = None).
    { intros k. rewrite app_assoc, gafter_app. reflexivity. }
    assert (Hq2 : quiet C (quiet_annual t) (gafter C p (h1 ++ g1 ++ [ClearAll])) g2).
    { rewrite gafter_app. revert H2. generalize (gafter C p h1). clear.
      induction g1 as [|a r IH]; intros s H; cbn in *; [tauto|]. destruct H as [_ H].
      apply IH in H. exact H. }
    rewrite gafter_app. eapply quiet_annual_run; eauto.
    + intros k v E. rewrite Q in E. discriminate.
    + intros v E. rewrite Q in E. discriminate.
Qed.

End Proofs.
