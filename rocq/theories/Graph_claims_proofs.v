(** Proofs about the object graph: the claims. *)

Require Import List Arith Bool Lia.
From Verif Require Import Replaceable Replaceable_proofs Graph Graph_spec.
From Verif Require Import Graph_proofs Graph_proofs2 Graph_proofs3 Graph_proofs4 Graph_proofs5.
From Verif Require Import Graph_proofs6 Graph_proofs7.
Import ListNotations.

Section Claims.

Context {X V P : Type}.
Variable C : calcs X V P.
Notation state := (@st X V P).
Implicit Types s : state.

Lemma ask_done : forall s q, snd (gstep C s (Query q)) = Value (snd (do_query C q s)).
Proof. intros. cbn. destruct (do_query C q s). reflexivity. Qed.

Lemma kd_edp : forall (n : option (@node P)), n = Some NEdp \/ n = Some NCompound -> kd n = 4.
Proof. intros n [->| ->]; auto. Qed.

Theorem lambda_right : forall p h e x, careful C p h -> settled h = true ->
  node_of (gafter C p h) e = Some NEdp \/ node_of (gafter C p h) e = Some NCompound ->
  right_after C p h (QLambda e x).
Proof.
  intros p h e x Hc Hs K. destruct (inv C p h Hc) as (past & L & F). specialize (F Hs).
  pose proof (inv_whole C p h Hc) as W.
  destruct (answer_there C past _ (QLambda e x) L W (kd_edp _ K)) as (v & Q).
  exists v. rewrite ask_done, Q. split; auto. apply query_current; auto.
Qed.

Theorem group_right : forall p h g a q, careful C p h -> settled h = true ->
  node_of (gafter C p h) g = Some (NGrp a) -> right_after C p h (QGrp g q).
Proof.
  intros p h g a q Hc Hs K. destruct (inv C p h Hc) as (past & L & F). specialize (F Hs).
  pose proof (inv_whole C p h Hc) as W.
  destruct (answer_there C past _ (QGrp g q) L W) as (v & Q); [rewrite K; auto|].
  exists v. rewrite ask_done, Q. split; auto. apply query_current; auto.
Qed.

Theorem total_right : forall p h t r d x, careful C p h -> settled h = true ->
  node_of (gafter C p h) t = Some (NStr r d) -> right_after C p h (QTotal t x).
Proof.
  intros p h t r d x Hc Hs K. destruct (inv C p h Hc) as (past & L & F). specialize (F Hs).
  pose proof (inv_whole C p h Hc) as W.
  destruct (answer_there C past _ (QTotal t x) L W) as (v & Q); [rewrite K; auto|].
  exists v. rewrite ask_done, Q. split; auto. apply query_current; auto.
Qed.

Theorem annual_right : forall p h t r d, careful C p h -> settled h = true ->
  quiet_since C (clears_annual C t) (quiet_annual t) p h ->
  node_of (gafter C p h) t = Some (NStr r d) -> right_after C p h (QAnnual t).
Proof.
  intros p h t r d Hc Hs Hq K. destruct (inv C p h Hc) as (past & L & F). specialize (F Hs).
  pose proof (inv_whole C p h Hc) as W.
  destruct (answer_there C past _ (QAnnual t) L W) as (v & Q); [rewrite K; auto|].
  exists v. rewrite ask_done, Q. split; auto. apply (answer_right C _ _ (KStr t)); auto.
  apply annual_current; auto.
Qed.

Theorem collapse_right : forall p h i c d, careful C p h ->
  quiet_since C (clears_collapse C i) (quiet_collapse i) p h ->
  node_of (gafter C p h) i = Some (NIM c d) -> right_after C p h (QCollapse i).
Proof.
  intros p h i c d Hc Hq K. destruct (inv C p h Hc) as (past & L & _).
  pose proof (inv_whole C p h Hc) as W.
  destruct (answer_there C past _ (QCollapse i) L W) as (v & Q); [rewrite K; auto|].
  exists v. rewrite ask_done, Q. split; auto. apply (answer_right C _ _ (KCollapse i)); auto.
  apply collapse_current; auto.
Qed.

Theorem demolition_right : forall p h i c d, careful C p h ->
  quiet_since C (clears_demolition C i) (quiet_demolition i) p h ->
  node_of (gafter C p h) i = Some (NIM c d) -> right_after C p h (QDemolition i).
Proof.
  intros p h i c d Hc Hq K. destruct (inv C p h Hc) as (past & L & _).
  pose proof (inv_whole C p h Hc) as W.
  destruct (answer_there C past _ (QDemolition i) L W) as (v & Q); [rewrite K; auto|].
  exists v. rewrite ask_done, Q. split; auto. apply (answer_right C _ _ (KDemolition i)); auto.
  apply demolition_current; auto.
Qed.

Lemma careful_last : forall p h op, careful C p (h ++ [op]) ->
  exists past, Lnk past (gafter C p h) /\ careful_op (gafter C p h) past op /\ careful C p h.
Proof.
  intros p h op H. unfold careful in H. apply careful_app in H. destruct H as [H1 H2].
  destruct (inv_past C h (st0 p) [] H1 (lnk_st0 p) (whole_st0 p)) as [L _].
  exists (fold_left past_after h []). split; [exact L|]. split; [|exact H1]. cbn in H2. destruct H2 as [H2 _]. exact H2.
Qed.

(** What a careful replacement does to the pointers. *)
Theorem replace_rewires : forall p h o o', careful C p (h ++ [Replace o o']) ->
  same_type (gafter C p h) o o' = true ->
  let s := gafter C p h in let s' := gafter C p (h ++ [Replace o o']) in
  snd (gstep C s (Replace o o')) = Done /\
  (forall sl, ptr s sl = Some o -> ptr s' sl = Some o') /\
  (forall sl, ptr s sl <> Some o -> ptr s' sl = ptr s sl).
Proof.
  intros p h o o' H T s s'. destruct (careful_last _ _ _ H) as (past & L & (N & Hu & H2) & _).
  unfold s'. rewrite gafter_snoc. cbn [gstep]. fold s in T |- *. rewrite T. cbn [fst snd].
  destruct (lnk_replace past s o o' L (same_type_kd _ _ _ T) N Hu H2) as (_ & _ & _ & _ & _ & _ & _ & Hp & _).
  split; auto. split; intros sl E; rewrite Hp.
  - rewrite E, Nat.eqb_refl. auto.
  - destruct (ptr s sl) as [x|]; auto. destruct (Nat.eqb_spec x o) as [->|]; auto. congruence.
Qed.

Theorem first_replaced : forall p h e o o' o2, careful C p (h ++ [Replace o o']) ->
  let s := gafter C p h in let s' := gafter C p (h ++ [Replace o o']) in
  ptr s (SDep e) = Some o -> ptr s (SSecond e) = Some o2 -> is_prob s o' = true ->
  snd (gstep C s (Replace o o')) = Done /\
  ptr s' (SDep e) = Some o' /\ ptr s' (SSecond e) = Some o2.
Proof.
  intros p h e o o' o2 H s s' E1 E2 Ko. pose proof (careful_last _ _ _ H) as (past & L & (N & Hu & H2) & _).
  assert (T : same_type s o o' = true).
  { destruct (l_typed _ _ L _ _ E1) as [K _]. cbn in K. fold s in K. unfold same_type, is_prob in *.
    destruct (node_of s o) as [[]|]; try discriminate. rewrite Ko. rewrite !orb_true_iff. tauto. }
  destruct (replace_rewires p h o o' H T) as (R1 & R2 & R3). split; [exact R1|]. split.
  - apply R2. exact E1.
  - unfold s'. rewrite R3; [exact E2|]. intros Q. apply (H2 e). exact Q.
Qed.

(** One measure. *)
Theorem one_measure_always : forall p h t, Forall plain_op h ->
  let s := gafter C p h in
  exists i, forall o, In o (groups s t) -> exists g, o = Some g /\ measure_of s g i.
Proof.
  intros p h t H. destruct (one_measure (gafter C p h) t) as (i & Q); [apply pl_after; auto|].
  exists i. intros o Ho. destruct (Q o Ho) as (g & e & Q1 & Q2 & Q3). exists g. split; auto. exists e. auto.
Qed.

Theorem add_decides : forall p h t g r d a, Forall plain_op h ->
  let s := gafter C p h in
  node_of s t = Some (NStr r d) -> node_of s g = Some (NGrp a) ->
  let (s', res) := gstep C s (AddGrp t g) in
  (exists i, measure_of s g i /\
     ((forall g', In (Some g') (groups s t) -> measure_of s g' i) ->
        res = Done /\ groups s' t = groups s t ++ [Some g]) /\
     (~ (forall g', In (Some g') (groups s t) -> measure_of s g' i) -> res = Thrown /\ s' = s)).
Proof.
  intros p h t g r d a H s Kt Kg. assert (HP : Pl s) by (apply pl_after; auto).
  assert (Kt8 : kd (node_of s t) = 8) by (rewrite Kt; auto).
  assert (Kg7 : kd (node_of s g) = 7) by (rewrite Kg; auto).
  destruct (add_verdict C s t g HP Kt8 Kg7) as (V1 & V2 & V3).
  pose proof (add_changes t g s) as A. cbn zeta in A.
  assert (Ed : gstep C s (AddGrp t g) = (let (s', ok) := do_add t g s in (s', if ok then Done else Thrown))).
  { cbn [gstep]. unfold is_str, is_grp. rewrite Kt, Kg. reflexivity. }
  destruct (gstep C s (AddGrp t g)) as [s' res] eqn:Es. cbn [fst snd] in *.
  assert (Hm : forall g', In (Some g') (groups s t) \/ g' = g ->
     exists i, im_of_grp s g' = Some i /\ (forall j, measure_of s g' j <-> j = i)).
  { intros g' Hg. assert (K : kd (node_of s g') = 7).
    { destruct Hg as [Hg|Hg]; [|subst; auto]. apply groups_in in Hg. destruct Hg as (k & I & Eg).
      eapply p_entry_grp; eauto. }
    destruct (pl_im_of_grp s g' HP K) as (e & i & Q1 & Q2 & Q3). exists i. split; auto.
    intros j. unfold measure_of. split.
    - intros (e' & Q4 & Q5). congruence.
    - intros ->. exists e. auto. }
  destruct (Hm g (or_intror eq_refl)) as (i & Qi & Qm). exists i. split; [apply Qm; auto|].
  assert (E : (forall g', In (Some g') (groups s t) -> measure_of s g' i) <->
              (forall g', In (Some g') (groups s t) -> im_of_grp s g' = im_of_grp s g)).
  { split; intros Q g' Hg; destruct (Hm g' (or_introl Hg)) as (j & Q1 & Q2); specialize (Q g' Hg).
    - apply Q2 in Q. congruence.
    - apply Q2. congruence. }
  rewrite E, <- V2. split.
  - intros ->. split; auto. destruct (do_add t g s) as [s1 ok]. inversion Ed as [[E1 E2]]. subst s1.
    destruct ok; [|discriminate]. cbn [fst snd] in A.
    destruct A as (_ & _ & _ & _ & A4 & _ & A6 & _). destruct (A6 eq_refl) as (A61 & A62 & _).
    unfold groups. rewrite A62, map_app. cbn. rewrite A61. f_equal. apply map_ext_in. intros k I.
    destruct (A4 (SEntry t k)) as [|[Q|[Q _]]]; auto; [discriminate|].
    inversion Q; subst. exfalso. pose proof (p_entry _ HP _ _ I) as Q2.
    destruct (ptr s (SEntry t (fresh s))) eqn:Q3; [|congruence]. apply (p_owner _ HP) in Q3. lia.
  - intros Q. destruct V1 as [V1|V1]; [congruence|]. auto.
Qed.

(** Contents. *)
Theorem contents_listed : forall p h t r d, Forall plain_op h ->
  node_of (gafter C p h) t = Some (NStr r d) ->
  exists l, listed C p t h l /\ (forall l', listed C p t h l' -> l' = l) /\
            groups (gafter C p h) t = map Some l.
Proof.
  intros p h t r d H K. destruct (listed_some C p t h) as (l & Hl). exists l.
  assert (K8 : kd (node_of (gafter C p h) t) = 8) by (rewrite K; auto).
  pose proof (proj1 (contents C p t h l H Hl) K8) as E. split; auto. split; auto.
  intros l' Hl'. pose proof (proj1 (contents C p t h l' H Hl') K8) as E'. rewrite E in E'.
  clear - E'. revert l E'. induction l' as [|x r IH]; intros [|y l] E; cbn in E; inversion E; auto. f_equal. auto.
Qed.

(** One measure, with replacement. *)
Lemma lnk_pl : forall past s, Lnk past s -> Whole s ->
  (forall t k g, In k (entries s t) -> ptr s (SEntry t k) = Some g -> im_of_grp s g = ptr s (SIm t)) -> Pl s.
Proof.
  intros past s L W M. constructor.
  - intros sl x E. destruct (ptr_alive _ _ _ _ L E) as [Q1 Q2]. split; auto. split; auto.
    destruct sl; auto. apply (l_entry _ _ L t). congruence.
  - apply (l_entries _ _ L).
  - intros a Ha. destruct (l_alloc _ _ L a Ha) as [Q1 _]. split; auto.
    destruct (entries s a) as [|k r] eqn:E; auto. exfalso.
    assert (I : In k (entries s a)) by (rewrite E; left; auto). pose proof (l_entries _ _ L _ _ I) as Q.
    destruct (ptr s (SEntry a k)) as [g|] eqn:Eg; [|congruence]. apply (ptr_alive _ _ _ _ L) in Eg. cbn in Eg. lia.
  - intros g K. destruct (node_of s g) as [[]|] eqn:E; try discriminate.
    pose proof (W _ _ (SEdp g) E (or_introl eq_refl)) as Q. destruct (ptr s (SEdp g)) as [e|] eqn:Ee; [|congruence].
    exists e. split; auto. apply (l_typed _ _ L) in Ee. tauto.
  - intros e K. destruct (node_of s e) as [[]|] eqn:E; try discriminate; apply (W _ _ (SBase e) E (or_introl eq_refl)).
  - intros t k g E. apply (l_typed _ _ L) in E. tauto.
  - exact M.
Qed.

Lemma pl_replace : forall past s o o', Lnk past s -> Whole s -> Pl s -> careful_op s past (Replace o o') ->
  keeps_measures s (Replace o o') -> Pl (fst (gstep C s (Replace o o'))).
Proof.
  intros past s o o' L W H Hc Hk.
  assert (L' : Lnk (past_after past (Replace o o')) (fst (gstep C s (Replace o o')))) by (apply lnk_step; auto).
  assert (W' : Whole (fst (gstep C s (Replace o o')))) by (eapply whole_step; eauto).
  revert L' W'. cbn [gstep]. destruct (same_type s o o') eqn:T; [|intros; exact H]. cbn [fst]. intros L' W'.
  destruct Hc as (N & Hu & H2). destruct Hk as [K1 K2].
  destruct (lnk_replace past s o o' L (same_type_kd _ _ _ T) N Hu H2) as (_ & _ & _ & _ & Hn & _ & _ & Hp & _).
  eapply lnk_pl; eauto. intros t k g. rewrite Hn. intros I E.
  rewrite (Hp (SEntry t k)) in E. destruct (ptr s (SEntry t k)) as [g0|] eqn:Eg; [|discriminate].
  pose proof (p_measure _ H _ _ _ I Eg) as M. pose proof (p_entry_grp _ H _ _ _ Eg) as Kg.
  destruct (pl_im_of_grp s g0 H Kg) as (e & i & Q1 & Q2 & Q3).
  assert (A : forall x e' i', ptr s (SEdp x) = Some e' -> ptr s (SBase e') = Some i' ->
     im_of_grp (do_replace o o' s) x = if i' =? o then Some o' else Some i').
  { intros x e' i' R1 R2. unfold im_of_grp. rewrite Hp, R1. destruct (Nat.eqb_spec e' o) as [->|].
    - rewrite Hp. rewrite (K1 _ R2). auto.
    - rewrite Hp, R2. auto. }
  assert (B : ptr (do_replace o o' s) (SIm t) = if i =? o then Some o' else Some i).
  { rewrite Hp, <- M, Q3. auto. }
  rewrite B. destruct (Nat.eqb_spec g0 o) as [->|].
  - inversion E; subst. destruct (K2 i) as (e' & R1 & R2); [exists e; auto|]. eapply A; eauto.
  - inversion E; subst. eapply A; eauto.
Qed.

Theorem one_measure_careful : forall p h t, careful C p h ->
  (forall h1 op h2, h = h1 ++ op :: h2 -> keeps_measures (gafter C p h1) op) ->
  let s := gafter C p h in
  exists i, forall o, In o (groups s t) -> exists g, o = Some g /\ measure_of s g i.
Proof.
  intros p h t Hc Hk.
  assert (HP : Pl (gafter C p h)).
  { induction h as [|op h IH] using rev_ind; [apply pl_st0|].
    pose proof (careful_last _ _ _ Hc) as (past & L & Ho & Hc').
    rewrite gafter_snoc.
    assert (HP : Pl (gafter C p h)).
    { apply IH; auto. intros h1 op1 h2 ->. apply (Hk h1 op1 (h2 ++ [op])). rewrite <- app_assoc. auto. }
    pose proof (inv_whole C p h Hc') as W. specialize (Hk h op [] eq_refl).
    destruct op; try (apply pl_step; [exact HP|exact I]). eapply pl_replace; eauto. }
  destruct (one_measure (gafter C p h) t HP) as (i & Q).
  exists i. intros o Ho. destruct (Q o Ho) as (g & e & Q1 & Q2 & Q3). exists g. split; auto. exists e. auto.
Qed.

Theorem careful_safe : forall p h, careful C p h -> bad (gafter C p h) = false.
Proof. intros p h H. destruct (inv C p h H) as (past & L & _). apply (l_bad _ _ L). Qed.

(** Settings. *)
Lemma settings_step : forall past s op, Lnk past s -> Whole s -> careful_op s past op ->
  (forall q, op <> SetSettings q) -> settings (fst (gstep C s op)) = settings s.
Proof.
  intros past s op L W Hc Hn. destruct (ch_settings _ _ _ _ (step_changes C past s op L W Hc)) as [Q|(q & Q)]; auto.
  exfalso. eapply Hn; eauto.
Qed.

Lemma settings_run : forall h s past, careful_from C s past h -> Lnk past s -> Whole s ->
  (forall op, In op h -> forall q, op <> SetSettings q) -> settings (after C s h) = settings s.
Proof.
  induction h as [|op r IH]; intros s past Hc L W Hn; cbn; auto.
  destruct Hc as [H1 H2].
  assert (E : settings (fst (gstep C s op)) = settings s) by (eapply settings_step; eauto; apply Hn; left; auto).
  rewrite <- E. eapply IH; eauto.
  - apply lnk_step; auto.
  - eapply whole_step; eauto.
  - intros op' I. apply Hn. right; auto.
Qed.

Lemma settled_rest : forall (h : list (@gop X P)), (forall op, In op h -> forall q, op <> SetSettings q) ->
  fold_left settled_step h true = true.
Proof.
  induction h as [|op r IH]; intros Hn; cbn; auto.
  assert (E : settled_step true op = true).
  { destruct op; auto. exfalso. eapply Hn; [left; reflexivity|reflexivity]. }
  rewrite E. apply IH. intros op' I. apply Hn. right; auto.
Qed.

Theorem settings_cleared : forall p h1 p' h2,
  careful C p (h1 ++ SetSettings p' :: ClearAll :: h2) ->
  (forall op, In op h2 -> forall q, op <> SetSettings q) ->
  let h := h1 ++ SetSettings p' :: ClearAll :: h2 in
  settings (gafter C p h) = p' /\
  (forall e x, node_of (gafter C p h) e = Some NEdp \/ node_of (gafter C p h) e = Some NCompound ->
     right_after C p h (QLambda e x)) /\
  (forall g a q, node_of (gafter C p h) g = Some (NGrp a) -> right_after C p h (QGrp g q)).
Proof.
  intros p h1 p' h2 Hc Hn h.
  assert (Hs : settled h = true).
  { unfold settled, h. rewrite fold_left_app. cbn. apply settled_rest. auto. }
  split.
  - unfold careful in Hc. apply careful_app in Hc. destruct Hc as [H1 [H2 [H3 H4]]].
    destruct (inv_past C h1 (st0 p) [] H1 (lnk_st0 p) (whole_st0 p)) as [L W].
    pose proof (lnk_step C _ _ _ L H2) as L2. pose proof (whole_step C _ _ _ L W H2) as W2.
    pose proof (lnk_step C _ _ _ L2 H3) as L3. pose proof (whole_step C _ _ _ L2 W2 H3) as W3.
    unfold h. rewrite gafter_app. cbn [after fold_left].
    change (settings (after C (fst (gstep C (fst (gstep C (gafter C p h1) (SetSettings p'))) ClearAll)) h2) = p').
    erewrite settings_run; [reflexivity|exact H4|exact L3|exact W3|exact Hn].
  - split; intros.
    + apply lambda_right; auto.
    + eapply group_right; eauto.
Qed.

End Claims.

(** ** Witnesses, in the adding instance *)

(** Three functions, a measure, a response function, a demand parameter (5), a
    fragility function (6), a loss function (7), a group (8) and a structure (9). *)
Definition base : list (@gop nat nat) :=
  [NewDet 1; NewIM 0; NewDet 2; NewDet 3; NewProb 0 2 3; NewEdp 1 4; NewFrag 1; NewLoss 1;
   NewGrp 1 5 6 (Some 7) None; NewStr].

Lemma stale_by : forall p h q v w,
  legal adding p h -> bad (gafter adding p h) = false ->
  snd (gstep adding (gafter adding p h) (Query q)) = Value (Some v) ->
  snd (do_query adding q (wipe (fun _ => true) (gafter adding p h))) = Some w -> v <> w ->
  stale_after adding p h q.
Proof.
  intros p h q v w L B E F N. split; auto. split; auto. exists v. split; auto.
  eapply stale; eauto.
Qed.

Ltac witness := eapply stale_by;
  [vm_compute; repeat split; discriminate|vm_compute; reflexivity|vm_compute; reflexivity
  |vm_compute; reflexivity|discriminate].

(** A second demand parameter on a measure that replaced another displaces the
    first one's callbacks. *)
Definition lambda_displaced : list (@gop nat nat) :=
  base ++ [NewIM 0; Replace 1 10; NewEdp 10 4; Query (QLambda 5 1); SetCollapse 10 (Some 3)].
Lemma lambda_displaced_stale : stale_after adding 0 lambda_displaced (QLambda 5 1).
Proof. witness. Qed.

(** The second response function of a compound demand parameter is replaced;
    then the old one, still in use, changes. *)
Definition lambda_second : list (@gop nat nat) :=
  [NewDet 1; NewIM 0; NewDet 2; NewDet 3; NewProb 0 2 3; NewDet 4; NewProb 0 5 3; NewProb 1 2 3;
   NewCompound 1 4 6; Replace 6 7; Query (QLambda 8 1); NewDet 7; Replace 5 9].
Lemma lambda_second_stale : stale_after adding 0 lambda_second (QLambda 8 1).
Proof. witness. Qed.

(** A second group on a demand parameter that replaced another displaces the
    first one's callbacks. *)
Definition group_displaced : list (@gop nat nat) :=
  base ++ [NewEdp 1 4; Replace 5 10; NewGrp 1 10 6 None None; Query (QGrp 8 (GECost 1));
           SetCollapse 1 (Some 2)].
Lemma group_displaced_stale : stale_after adding 0 group_displaced (QGrp 8 (GECost 1)).
Proof. witness. Qed.

Definition annual_asked : list (@gop nat nat) := base ++ [AddGrp 9 8; Query (QAnnual 9)].
Lemma annual_input_stale : stale_after adding 0 (annual_asked ++ [NewFrag 4; Replace 6 11]) (QAnnual 9).
Proof. witness. Qed.
Lemma annual_removed_stale : stale_after adding 0 (annual_asked ++ [RemoveGrp 9 8]) (QAnnual 9).
Proof. witness. Qed.
Lemma annual_rebuild_stale : stale_after adding 0 (annual_asked ++ [SetRebuild 9 5]) (QAnnual 9).
Proof. witness. Qed.
Lemma annual_demolition_stale : stale_after adding 0 (annual_asked ++ [SetDemolitionCost 9 5]) (QAnnual 9).
Proof. witness. Qed.

Definition collapse_asked : list (@gop nat nat) := [NewDet 1; NewIM 0; Query (QCollapse 1); Query (QDemolition 1)].
Lemma collapse_hazard_stale : stale_after adding 0 (collapse_asked ++ [NewDet 5; Replace 0 2]) (QCollapse 1).
Proof. witness. Qed.
Lemma demolition_hazard_stale : stale_after adding 0 (collapse_asked ++ [NewDet 5; Replace 0 2]) (QDemolition 1).
Proof. witness. Qed.
Lemma demolition_collapse_stale : stale_after adding 0 (collapse_asked ++ [SetCollapse 1 (Some 4)]) (QDemolition 1).
Proof. witness. Qed.

(** The settings change after a query. *)
Lemma settings_stale : stale_after adding 0 (base ++ [Query (QLambda 5 1); SetSettings 2]) (QLambda 5 1).
Proof. witness. Qed.

(** A structure is destroyed; its group then changes measure. *)
Definition dangling : list (@gop nat nat) := base ++ [AddGrp 9 8; Destroy 9; SetCollapse 1 (Some 2)].
Lemma dangling_bad : legal adding 0 dangling /\ bad (gafter adding 0 dangling) = true.
Proof. split; [vm_compute; repeat split; discriminate|vm_compute; reflexivity]. Qed.

(** The demand parameter of one of two groups is replaced by one on another
    measure. *)
Definition two_measures : list (@gop nat nat) :=
  base ++ [NewEdp 1 4; NewGrp 2 10 6 None None; AddGrp 9 8; AddGrp 9 11; NewIM 0; NewEdp 14 4; Replace 10 15].

(** ** The refutations, as stated in Graph_props.v *)

Ltac lawful := vm_compute; repeat split; discriminate.
Ltac prudent := apply carefulb_ok; vm_compute; reflexivity.

Lemma refute_displaced : exists h e x, stale_after adding 0 h (QLambda e x).
Proof. exists lambda_displaced, 5, 1. exact lambda_displaced_stale. Qed.

Lemma refute_second : exists h e x, stale_after adding 0 h (QLambda e x) /\
  node_of (gafter adding 0 h) e = Some NCompound.
Proof. exists lambda_second, 8, 1. split; [exact lambda_second_stale|reflexivity]. Qed.

Lemma refute_group : exists h g q, stale_after adding 0 h (QGrp g q).
Proof. exists group_displaced, 8, (GECost 1). exact group_displaced_stale. Qed.

Lemma refute_input : exists h f f' t, stale_after adding 0 (h ++ [Replace f f']) (QAnnual t) /\
  careful adding 0 (h ++ [Replace f f']).
Proof. exists (annual_asked ++ [NewFrag 4]), 6, 11, 9. split; [exact annual_input_stale|prudent]. Qed.

Lemma refute_removal : exists h t g, stale_after adding 0 (h ++ [RemoveGrp t g]) (QAnnual t) /\
  careful adding 0 (h ++ [RemoveGrp t g]).
Proof. exists annual_asked, 9, 8. split; [exact annual_removed_stale|prudent]. Qed.

Lemma refute_rebuild : exists h t c, stale_after adding 0 (h ++ [SetRebuild t c]) (QAnnual t) /\
  careful adding 0 (h ++ [SetRebuild t c]).
Proof. exists annual_asked, 9, 5. split; [exact annual_rebuild_stale|prudent]. Qed.

Lemma refute_demolition_cost : exists h t c, stale_after adding 0 (h ++ [SetDemolitionCost t c]) (QAnnual t) /\
  careful adding 0 (h ++ [SetDemolitionCost t c]).
Proof. exists annual_asked, 9, 5. split; [exact annual_demolition_stale|prudent]. Qed.

Lemma refute_collapse : exists h f f' i, stale_after adding 0 (h ++ [Replace f f']) (QCollapse i) /\
  ptr (gafter adding 0 h) (SF i) = Some f /\ careful adding 0 (h ++ [Replace f f']).
Proof.
  exists (collapse_asked ++ [NewDet 5]), 0, 2, 1.
  split; [exact collapse_hazard_stale|]. split; [reflexivity|prudent].
Qed.

Lemma refute_demolition :
  (exists h f f' i, stale_after adding 0 (h ++ [Replace f f']) (QDemolition i)) /\
  (exists h c i, stale_after adding 0 (h ++ [SetCollapse i c]) (QDemolition i)).
Proof.
  split.
  - exists (collapse_asked ++ [NewDet 5]), 0, 2, 1. exact demolition_hazard_stale.
  - exists collapse_asked, (Some 4), 1. exact demolition_collapse_stale.
Qed.

Lemma refute_compound : exists h e o1 o2 o2',
  legal adding 0 (h ++ [Replace o2 o2']) /\ careful adding 0 h /\ o1 <> o2' /\ o2 <> o2' /\
  let s := gafter adding 0 h in let s' := gafter adding 0 (h ++ [Replace o2 o2']) in
  node_of s e = Some NCompound /\ ptr s (SDep e) = Some o1 /\ ptr s (SSecond e) = Some o2 /\
  ptr s' (SDep e) = Some o2' /\ ptr s' (SSecond e) = Some o2.
Proof.
  exists (firstn 9 lambda_second), 8, 4, 6, 7. split; [lawful|]. split; [prudent|]. lawful.
Qed.

Lemma refute_settings : exists h p' e x, careful adding 0 (h ++ [SetSettings p']) /\
  stale_after adding 0 (h ++ [SetSettings p']) (QLambda e x).
Proof.
  exists (base ++ [Query (QLambda 5 1)]), 2, 5, 1. split; [prudent|].
  exact settings_stale.
Qed.

Lemma refute_dangling : exists h, legal adding 0 h /\ bad (gafter adding 0 h) = true.
Proof. exists dangling. exact dangling_bad. Qed.

Lemma refute_measures : exists h t g g' i i', careful adding 0 h /\ legal adding 0 h /\ i <> i' /\
  let s := gafter adding 0 h in
  groups s t = [Some g; Some g'] /\ measure_of s g i /\ measure_of s g' i'.
Proof.
  exists two_measures, 9, 8, 11, 1, 14. split; [prudent|]. split; [lawful|]. split; [discriminate|].
  split; [vm_compute; reflexivity|]. unfold measure_of.
  split; [exists 5|exists 15]; vm_compute; auto.
Qed.
