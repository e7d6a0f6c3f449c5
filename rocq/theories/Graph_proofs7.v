(** Proofs about the object graph: deciding which histories are careful, and
    recomputation. *)

Require Import List Arith Bool Lia.
From Verif Require Import Replaceable Replaceable_proofs Graph Graph_spec.
From Verif Require Import Graph_proofs Graph_proofs2 Graph_proofs3 Graph_proofs4 Graph_proofs5.
Import ListNotations.

Section Proofs.

Context {X V P : Type}.
Variable C : calcs X V P.
Notation state := (@st X V P).
Implicit Types s : state.

(** ** A checker for careful histories *)

Definition notin (l : list nat) (o : nat) : bool := negb (existsb (Nat.eqb o) l).
Definition onotin (l : list nat) (o : option nat) : bool := match o with Some o => notin l o | None => true end.
Definition is_none (o : option nat) : bool := match o with None => true | _ => false end.

Definition careful_opb s (past : list nat) (op : @gop X P) : bool :=
  match op with
  | NewProb _ m g => notin past m && notin past g
  | NewIM f => notin past f
  | NewEdp b d => notin past b && notin past d
  | NewCompound b d d2 => notin past b && notin past d && notin past d2
  | NewGrp _ e f c d => notin past e && notin past f && onotin past c && onotin past d
  | AddGrp t g => notin past g &&
      match entries s t with
      | [] => (is_none (ptr s (SIm t)) || opt_eqb (ptr s (SIm t)) (im_of_grp s g)) && onotin past (im_of_grp s g)
      | _ => true
      end
  | Replace o o' => negb (o =? o') && negb (referenced s o') &&
      forallb (fun e => negb (opt_eqb (ptr s (SSecond e)) (Some o))) (seq 0 (fresh s))
  | Destroy o => negb (is_str s o)
  | _ => true
  end.

Fixpoint careful_fromb s (past : list nat) (h : list gop) : bool :=
  match h with
  | [] => true
  | op :: r => careful_opb s past op && careful_fromb (fst (gstep C s op)) (past_after past op) r
  end.

Lemma notin_spec : forall l o, notin l o = true -> ~ In o l.
Proof.
  intros l o H I. unfold notin in H. apply negb_true_iff in H.
  assert (existsb (Nat.eqb o) l = true); [|congruence].
  apply existsb_exists. exists o. split; auto. apply Nat.eqb_refl.
Qed.

Lemma onotin_spec : forall l c, onotin l c = true -> forall o, c = Some o -> ~ In o l.
Proof. intros l c H o ->. apply notin_spec. exact H. Qed.

Lemma careful_opb_ok : forall past s op, Lnk past s -> careful_opb s past op = true -> careful_op s past op.
Proof.
  intros past s op L H. destruct op; cbn [careful_opb careful_op] in *; auto;
    repeat match goal with K : _ && _ = true |- _ => apply andb_true_iff in K; destruct K end;
    repeat match goal with K : notin _ _ = true |- _ => apply notin_spec in K end; auto.
  - repeat split; auto; apply onotin_spec; auto.
  - apply negb_true_iff, Nat.eqb_neq in H. apply negb_true_iff in H1.
    split; auto. split; [eapply referenced_false; eauto|].
    intros e E. pose proof E as E'. apply (ptr_alive _ _ _ _ L) in E'. cbn in E'.
    rewrite forallb_forall in H0. specialize (H0 e). rewrite E in H0. cbn [opt_eqb] in H0.
    rewrite Nat.eqb_refl in H0. assert (false = true); [apply H0; apply in_seq; lia|discriminate].
  - apply negb_true_iff. auto.
  - split; auto. intros E. rewrite E in H0. apply andb_true_iff in H0. destruct H0 as [Q1 Q2]. split.
    + apply orb_true_iff in Q1. destruct Q1 as [Q1|Q1].
      * left. destruct (ptr s (SIm t)); [discriminate|auto].
      * right. apply opt_eqb_spec. auto.
    + apply onotin_spec; auto.
Qed.

Lemma careful_fromb_ok : forall h s past, Lnk past s -> careful_fromb s past h = true -> careful_from C s past h.
Proof.
  induction h as [|op r IH]; intros s past L H; cbn in *; auto.
  apply andb_true_iff in H. destruct H as [H1 H2]. pose proof (careful_opb_ok _ _ _ L H1) as Ho.
  split; auto. apply IH; auto. apply lnk_step; auto.
Qed.

Lemma carefulb_ok : forall p h, careful_fromb (st0 p) [] h = true -> careful C p h.
Proof. intros p h H. apply careful_fromb_ok; auto. apply lnk_st0. Qed.

(** ** Recomputation *)

Lemma grps_fun : forall s t a b, grps_are s t a -> grps_are s t b -> a = b.
Proof. intros s t a b Ha Hb. apply grps_iff in Ha. apply grps_iff in Hb.
  destruct Ha as (x & Q1 & <-). destruct Hb as (y & Q2 & <-). congruence. Qed.

Lemma current_fun : forall s q v w, current C s q v -> current C s q w -> v = w.
Proof.
  intros s q v w. destruct q; cbn.
  - intros (d & Q1 & ->) (d' & Q2 & ->). apply im_iff in Q1. apply im_iff in Q2. congruence.
  - intros (d & Q1 & ->) (d' & Q2 & ->). apply im_iff in Q1. apply im_iff in Q2. congruence.
  - intros (d & Q1 & ->) (d' & Q2 & ->). apply edp_iff in Q1. apply edp_iff in Q2. congruence.
  - intros (d & Q1 & ->) (d' & Q2 & ->). apply grp_iff in Q1. apply grp_iff in Q2. congruence.
  - intros (r & d & i & gs & Q1 & Q2 & Q3 & ->) (r' & d' & i' & gs' & Q1' & Q2' & Q3' & ->).
    apply str_im_iff in Q2. apply str_im_iff in Q2'. rewrite (grps_fun _ _ _ _ Q3 Q3').
    congruence.
  - intros (r & d & i & gs & Q1 & Q2 & Q3 & ->) (r' & d' & i' & gs' & Q1' & Q2' & Q3' & ->).
    apply str_im_iff in Q2. apply str_im_iff in Q2'. rewrite (grps_fun _ _ _ _ Q3 Q3').
    congruence.
Qed.

Lemma wiped_current : forall s q v, snd (do_query C q (wipe (fun _ => true) s)) = Some v -> current C s q v.
Proof.
  intros s q v E.
  assert (K : current C (wipe (fun _ => true) s) q v).
  { destruct q; try (apply query_current; [apply frs_wiped|exact E|exact I]).
    - apply (answer_right C _ _ (KCollapse i)); auto. unfold okk. cbn. discriminate.
    - apply (answer_right C _ _ (KDemolition i)); auto. unfold okk. cbn. discriminate.
    - apply (answer_right C _ _ (KStr t)); auto. unfold okk. cbn. discriminate.
      split; auto. apply frs_wiped. }
  exact K.
Qed.

(** A remembered answer that differs from the recomputed one is not current. *)
Lemma stale : forall s q v w, snd (do_query C q (wipe (fun _ => true) s)) = Some w -> v <> w ->
  ~ current C s q v.
Proof. intros s q v w E N K. apply N. eapply current_fun; [exact K|apply wiped_current; auto]. Qed.

End Proofs.
