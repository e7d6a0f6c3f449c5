(** Proofs about scripts. *)

Require Import List Arith Bool Lia.
From Verif Require Import Replaceable Replaceable_proofs Graph Graph_spec Script Script_spec.
From Verif Require Import Graph_proofs Graph_proofs2 Graph_proofs3 Graph_proofs4 Graph_proofs5.
From Verif Require Import Graph_proofs6 Graph_proofs7 Graph_claims_proofs.
Import ListNotations.

Section Proofs.

Context {X V P : Type}.
Variable C : calcs X V P.
Notation state := (@st X V P).

Definition sk (k : sort) : nat :=
  match k with TDet => 1 | TProb => 2 | TIm => 3 | TEdp => 4 | TFrag => 5 | TLoss => 6 | TGrp => 7 | TStr => 8 end.

Lemma kd_is : forall (s : state) o,
  (kd (node_of s o) = 1 -> is_det s o = true) /\ (kd (node_of s o) = 2 -> is_prob s o = true) /\
  (kd (node_of s o) = 3 -> is_im s o = true) /\ (kd (node_of s o) = 4 -> is_edp s o = true) /\
  (kd (node_of s o) = 5 -> is_frag s o = true) /\ (kd (node_of s o) = 6 -> is_loss s o = true) /\
  (kd (node_of s o) = 7 -> is_grp s o = true) /\ (kd (node_of s o) = 8 -> is_str s o = true).
Proof.
  intros. unfold is_det, is_prob, is_im, is_edp, is_frag, is_loss, is_grp, is_str.
  destruct (node_of s o) as [[]|]; cbn; repeat split; intros; try discriminate; auto.
Qed.

(** Every name leads to an object of its sort. *)
Definition Env (s : state) (d : dict) : Prop := forall k n o, d k n = Some o -> kd (node_of s o) = sk k.

Lemma sort_eqb_spec : forall a b, sort_eqb a b = true -> a = b.
Proof. intros [] []; cbn; intros; try discriminate; auto. Qed.

(** A definition whose names are known makes an object. *)
Lemma new_made : forall past (s : state) d c op k n, Lnk past s -> Env s d -> call d s c = Some op -> defines c = Some (k, n) ->
  let s' := fst (gstep C s op) in
  snd (gstep C s op) = Done /\ fresh s' = S (fresh s) /\ kd (node_of s' (fresh s)) = sk k /\
  (forall a, a <> fresh s -> node_of s' a = node_of s a) /\ is_new op = true.
Proof.
  intros past s d c op k n L E Hc Hd. destruct c; cbn in Hd; try discriminate; inversion Hd; subst; clear Hd; cbn [call] in Hc.
  - inversion Hc; subst. cbn. rewrite upd_same. repeat split; auto. intros; apply upd_other; auto.
  - destruct (d TDet mu) as [m|] eqn:E1; [|discriminate]. destruct (d TDet sigma) as [g|] eqn:E2; [|discriminate].
    inversion Hc; subst. cbn [gstep]. apply E in E1. apply E in E2. apply kd_is in E1. apply kd_is in E2. rewrite E1, E2.
    cbn. rewrite upd_same. repeat split; auto. intros; apply upd_other; auto.
  - destruct (d TDet f) as [m|] eqn:E1; [|discriminate].
    inversion Hc; subst. cbn [gstep]. apply E in E1. apply kd_is in E1. rewrite E1.
    cbn. rewrite upd_same. repeat split; auto. intros; apply upd_other; auto.
  - destruct (d TIm i) as [m|] eqn:E1; [|discriminate]. destruct (d TProb f) as [g|] eqn:E2; [|discriminate].
    apply E in E1. apply E in E2. apply kd_is in E1. apply kd_is in E2.
    inversion Hc; subst. cbn [gstep]. rewrite E1, E2.
    cbn. rewrite upd_same. repeat split; auto. intros; apply upd_other; auto.
  - destruct (d TIm i) as [m|] eqn:E1; [|discriminate]. destruct (d TEdp x) as [ex|] eqn:E2; [|discriminate].
    destruct (d TEdp y) as [ey|] eqn:E3; [|discriminate].
    destruct (ptr s (SDep ex)) as [f|] eqn:E4; [|discriminate]. destruct (ptr s (SDep ey)) as [f2|] eqn:E5; [|discriminate].
    apply E in E1. apply kd_is in E1. apply (l_typed _ _ L) in E4. apply (l_typed _ _ L) in E5.
    destruct E4 as [E4 _]. destruct E5 as [E5 _]. apply kd_is in E4. apply kd_is in E5.
    inversion Hc; subst. cbn [gstep]. rewrite E1, E4, E5.
    cbn. rewrite upd_same. repeat split; auto. intros; apply upd_other; auto.
  - inversion Hc; subst. cbn. rewrite upd_same. repeat split; auto. intros; apply upd_other; auto.
  - inversion Hc; subst. cbn. rewrite upd_same. repeat split; auto. intros; apply upd_other; auto.
  - destruct (d TEdp e) as [m|] eqn:E1; [|discriminate]. destruct (d TFrag f) as [g|] eqn:E2; [|discriminate].
    destruct (maybe d TLoss c) as [oc|] eqn:E3; try discriminate. remember (maybe d TLoss d0) as od eqn:E4.
    inversion Hc; subst op. clear Hc. apply E in E1. apply E in E2. apply kd_is in E1. apply kd_is in E2.
    assert (Q : forall c oc, maybe d TLoss c = oc -> opt_loss s oc = true).
    { intros c0 oc0 Q. destruct c0 as [c0|]; cbn in Q; [|subst oc0; auto].
      destruct oc0 as [l|]; [|reflexivity]. apply E in Q. apply kd_is in Q. exact Q. }
    apply Q in E3. symmetry in E4. apply Q in E4. cbn [gstep]. rewrite E1, E2, E3, E4. cbn [andb fst snd].
    destruct od; cbn; rewrite upd_same; repeat split; auto; intros; apply upd_other; auto.
  - inversion Hc; subst. cbn. rewrite upd_same. repeat split; auto. intros; apply upd_other; auto.
Qed.

(** Other commands change no object's kind, unless the object is collected. *)
Lemma other_kinds : forall past (s : state) op, Lnk past s -> Whole s -> careful_op s past op -> is_new op = false ->
  forall a, op <> Destroy a -> kd (node_of (fst (gstep C s op)) a) = kd (node_of s a).
Proof.
  intros past s op L W Hc Hn a Ha. pose proof (step_changes C past s op L W Hc) as Ch.
  destruct (ch_node _ _ _ _ Ch a) as [E|[[_ [_ E']]|[[E [_ E']]|[(c & c' & d & _ & E & E')|[(c & d & d' & _ & E & E')|[(c & r & d & _ & E & E')|(c & r & d & _ & E & E')]]]]]]; try congruence; rewrite E, E'; auto.
Qed.

Lemma tk_wk : forall sl, tk sl <> wk sl.
Proof. intros []; cbn; discriminate. Qed.

(** Replacing an object by one just made is careful. *)
Lemma replace_new : forall past (s1 : state) o o', Lnk past s1 -> o <> o' ->
  kd (node_of s1 o) = kd (node_of s1 o') -> kd (node_of s1 o) <> 2 ->
  (forall sl, owner sl <> o' -> ptr s1 sl <> Some o') ->
  careful_op s1 past (Replace o o').
Proof.
  intros past s1 o o' L N K K2 Hu. cbn. split; auto. split.
  - intros sl E. destruct (Nat.eq_dec (owner sl) o') as [Q|Q]; [|apply (Hu sl Q E)].
    destruct (l_typed _ _ L _ _ E) as [T1 T2]. rewrite Q in T2. apply (tk_wk sl). congruence.
  - intros e E. destruct (l_typed _ _ L _ _ E) as [T1 T2]. cbn in T1. congruence.
Qed.

Lemma kd_same : forall (s : state) o o' k, replaces k = true -> kd (node_of s o) = sk k -> kd (node_of s o') = sk k ->
  same_type s o o' = true.
Proof.
  intros s o o' k R K1 K2. unfold same_type. destruct k; try discriminate; cbn [sk] in *;
    apply kd_is in K1; apply kd_is in K2; rewrite K1, K2, ?orb_true_r; auto.
Qed.

Record Good (past : list nat) (s : @sst X V P) : Prop := {
  g_lnk : Lnk past (graph s);
  g_whole : Whole (graph s);
  g_env : Env (graph s) (names s)
}.

(** The graph before and after a redefinition. *)
Lemma good_new : forall past s c op k n, Good past s -> call (names s) (graph s) c = Some op -> defines c = Some (k, n) ->
  careful_op (graph s) past op ->
  let s1 := fst (gstep C (graph s) op) in
  Lnk past s1 /\ Whole s1 /\ Env s1 (define (names s) k n (fresh (graph s))) /\
  (forall sl, owner sl <> fresh (graph s) -> ptr s1 sl = ptr (graph s) sl) /\
  (forall o, replaces k = true -> names s k n = Some o ->
     careful_op s1 past (Replace o (fresh (graph s))) /\ same_type s1 o (fresh (graph s)) = true).
Proof.
  intros past s c op k n [L W E] Hc Hd Ho s1.
  destruct (new_made _ _ _ _ _ _ _ L E Hc Hd) as (M1 & M2 & M3 & M4 & M5). fold s1 in M2, M3, M4.
  assert (Pa : past_after past op = past) by (destruct op; try discriminate M5; auto).
  assert (L1 : Lnk past s1) by (rewrite <- Pa; apply lnk_step; auto).
  assert (W1 : Whole s1) by (eapply whole_step; eauto).
  pose proof (step_changes C past (graph s) op L W Ho) as Ch.
  assert (Hp : forall sl, owner sl <> fresh (graph s) -> ptr s1 sl = ptr (graph s) sl).
  { intros sl N. destruct (ch_ptr _ _ _ _ Ch sl) as [Q|[[Q _]|[(a & b & Q & _)|[(a & b & Q & _)|[Q _]]]]]; auto; try congruence;
      subst op; discriminate. }
  assert (Al : forall k' n' o, names s k' n' = Some o -> o < fresh (graph s)).
  { intros k' n' o Q. apply E in Q. destruct (Nat.lt_ge_cases o (fresh (graph s))) as [|G]; auto.
    rewrite (proj1 (l_alloc _ _ L _ G)) in Q. destruct k'; discriminate. }
  refine (conj L1 (conj W1 (conj _ (conj Hp _)))).
  - intros k' n' o. unfold define. destruct (sort_eqb k' k && (n' =? n)) eqn:Q.
    + apply andb_true_iff in Q. destruct Q as [Q _]. apply sort_eqb_spec in Q. subst. intros Q. inversion Q; subst. auto.
    + intros Q2. rewrite M4; [eapply E; eauto|]. apply Al in Q2. lia.
  - intros o R Q. pose proof (Al _ _ _ Q) as Lt. pose proof (E _ _ _ Q) as K.
    assert (K1 : kd (node_of s1 o) = sk k) by (rewrite M4 by lia; auto).
    split; [|apply (kd_same _ _ _ k); auto].
    apply replace_new; auto; try lia.
    + rewrite K1. destruct k; discriminate.
    + intros sl N. rewrite Hp by auto. intros Q2. apply (ptr_alive _ _ _ _ L) in Q2. lia.
Qed.

Definition past_of (s : @sst X V P) : list nat := fold_left past_after (trace s) [].

Lemma past_red : forall (s : @sst X V P) o, In o (past_of s) <-> In o (redefinitions s).
Proof.
  intros s o. unfold past_of, redefinitions.
  assert (H : forall (l : list (@gop X P)) acc, In o (fold_left past_after l acc) <->
     In o (flat_map (fun op => match op with Replace _ o => [o] | _ => [] end) l) \/ In o acc).
  { induction l as [|op r IH]; intros acc; cbn; [tauto|]. rewrite IH, in_app_iff.
    destruct op; cbn; tauto. }
  rewrite H. cbn. tauto.
Qed.

Lemma careful_mono : forall (s : state) l l' op, (forall o, In o l' -> In o l) -> careful_op s l op -> careful_op s l' op.
Proof.
  intros s l l' op H.
  assert (N : forall o, ~ In o l -> ~ In o l') by (intros o Q I; auto).
  destruct op; cbn; auto; try tauto.
  - intros [? ?]; split; auto.
  - intros [? ?]; split; auto.
  - intros (? & ? & ?); auto.
  - intros (Q1 & Q2 & Q3 & Q4). split; [auto|]. split; [auto|]. split; intros x E; apply N; eauto.
  - intros [Q1 Q2]. split; [auto|]. intros E. destruct (Q2 E) as [Q3 Q4]. split; auto.
Qed.

Lemma past_snoc : forall l op, fold_left past_after (l ++ [op]) [] = past_after (fold_left past_after l []) (op : @gop X P).
Proof. intros. rewrite fold_left_app. reflexivity. Qed.

Lemma good_step : forall s c, Good (past_of s) s -> careful_cmd s c -> Good (past_of (sstep C s c)) (sstep C s c).
Proof.
  intros s c G [Hc Hx]. pose proof G as [L W E].
  unfold sstep, calls, past_of. cbn [trace graph names]. destruct (call (names s) (graph s) c) as [op|] eqn:Ec.
  2:{ cbn. rewrite app_nil_r. constructor; auto. }
  assert (Ho : careful_op (graph s) (past_of s) op).
  { eapply careful_mono; [|exact Hc]. intros o. apply past_red. }
  destruct (defines c) as [[k n]|] eqn:Ed.
  - destruct (good_new _ _ _ _ _ _ G Ec Ed Ho) as (L1 & W1 & E1 & Hp & Hr).
    destruct (new_made _ _ _ _ _ _ _ L E Ec Ed) as (_ & _ & _ & _ & M5).
    assert (Pa : past_after (past_of s) op = past_of s) by (destruct op; try discriminate M5; auto).
    assert (Dflt : Good (fold_left past_after (trace s ++ [op]) []) (SS (fst (gstep C (graph s) op)) (define (names s) k n (fresh (graph s))) (trace s ++ [op]))).
    { rewrite past_snoc. fold (past_of s). rewrite Pa. constructor; auto. }
    destruct (replaces k) eqn:R; [|exact Dflt]. destruct (names s k n) as [o|] eqn:En; [|exact Dflt].
    destruct (Hr o eq_refl eq_refl) as [H2 T].
    change (op :: [Replace o (fresh (graph s))]) with ([op] ++ [Replace o (fresh (graph s))]).
    rewrite app_assoc, past_snoc, past_snoc. fold (past_of s). rewrite Pa. cbn [fold_left app].
    constructor; cbn [graph names].
    + apply lnk_step; auto.
    + eapply whole_step; eauto.
    + intros k' n' o' Q. rewrite (other_kinds (past_of s)); auto; [eapply E1; eauto|discriminate].
  - cbn [fold_left]. rewrite past_snoc. fold (past_of s).
    assert (Hn : is_new op = false).
    { destruct c; cbn in Ed, Ec; try discriminate;
        repeat match type of Ec with match ?x with _ => _ end = _ => destruct x; try discriminate end;
        inversion Ec; subst; auto. }
    constructor; cbn [graph names].
    + apply lnk_step; auto.
    + eapply whole_step; eauto.
    + intros k n o Q. rewrite (other_kinds (past_of s)); auto; [eapply E; eauto|].
      intros ->. destruct c; cbn in Ec; try discriminate;
        repeat match type of Ec with match ?x with _ => _ end = _ => destruct x; try discriminate end.
      inversion Ec; subst. eapply Hx; eauto.
Qed.

Lemma good_script : forall l s, Good (past_of s) s -> careful_cmds C s l ->
  Good (past_of (fold_left (sstep C) l s)) (fold_left (sstep C) l s).
Proof.
  induction l as [|c r IH]; intros s G H; cbn in *; auto.
  destruct H as [H1 H2]. apply IH; auto. apply good_step; auto.
Qed.

Lemma good_start : forall p, Good (past_of (SS (st0 p) (fun _ _ => None) [])) (SS (st0 p) (fun _ _ => None) []).
Proof.
  intros p. constructor; cbn.
  - apply lnk_st0.
  - apply whole_st0.
  - intros k n o. discriminate.
Qed.

Lemma cmds_app : forall l1 l2 s, careful_cmds C s (l1 ++ l2) <-> careful_cmds C s l1 /\ careful_cmds C (fold_left (sstep C) l1 s) l2.
Proof.
  induction l1 as [|c r IH]; intros l2 s; cbn; [tauto|]. rewrite IH. tauto.
Qed.

(** Redefinition rewires. *)
Theorem redefinition : forall p l c k n o, careful_script C p (l ++ [c]) -> replaces k = true ->
  redefines C p l c k n o ->
  rewired C p l c k n o /\
  (forall sl, ptr (graph (script C p l)) sl <> Some o ->
     names (script C p (l ++ [c])) k n <> Some (owner sl) ->
     ptr (graph (script C p (l ++ [c]))) sl = ptr (graph (script C p l)) sl).
Proof.
  intros p l c k n o Hc R (Hd & Hn & Ha).
  unfold careful_script in Hc. apply cmds_app in Hc. destruct Hc as [H1 [[H2 _] _]].
  pose proof (good_script l _ (good_start p) H1) as G. fold (script C p l) in *.
  destruct (call (names (script C p l)) (graph (script C p l)) c) as [op|] eqn:Ec; [|congruence].
  assert (Ho : careful_op (graph (script C p l)) (past_of (script C p l)) op).
  { eapply careful_mono; [|exact H2]. intros x. apply past_red. }
  destruct (good_new _ _ _ _ _ _ G Ec Hd Ho) as (L1 & W1 & E1 & Hp & Hr).
  destruct (new_made _ _ _ _ _ _ _ (g_lnk _ _ G) (g_env _ _ G) Ec Hd) as (_ & M2 & _ & _ & _).
  destruct (Hr o R Hn) as [(N & Hu & H22) T].
  set (s := graph (script C p l)) in *. set (s1 := fst (gstep C s op)) in *.
  destruct (lnk_replace _ _ _ _ L1 (same_type_kd _ _ _ T) N Hu H22) as (_ & _ & _ & _ & _ & _ & _ & Hq & _).
  assert (Es : graph (script C p (l ++ [c])) = do_replace o (fresh s) s1).
  { unfold script. rewrite fold_left_app. fold (script C p l). cbn [fold_left]. unfold sstep, calls. fold s.
    rewrite Ec, Hd, R, Hn. cbn [graph fold_left]. fold s1. cbn [gstep]. rewrite T. reflexivity. }
  assert (En : names (script C p (l ++ [c])) k n = Some (fresh s)).
  { unfold script. rewrite fold_left_app. fold (script C p l). cbn [fold_left]. unfold sstep. fold s.
    rewrite Ec, Hd. cbn [names]. unfold define. rewrite Nat.eqb_refl. destruct k; reflexivity. }
  assert (Hw : forall sl x, ptr s sl = Some x -> owner sl <> fresh s).
  { intros sl x Q. apply (ptr_alive _ _ _ _ (g_lnk _ _ G)) in Q. fold s in Q. lia. }
  split.
  - exists (fresh s). split; auto. split; auto.
    intros sl Q. fold s in Q. rewrite Es, Hq, Hp by (eapply Hw; eauto). rewrite Q, Nat.eqb_refl. auto.
  - intros sl Q1 Q2. rewrite En in Q2. rewrite Es, Hq, Hp by congruence.
    destruct (ptr s sl) as [x|]; auto. destruct (Nat.eqb_spec x o) as [->|]; congruence.
Qed.

(** The trace of a careful script is a careful history of the graph. *)
Lemma trace_graph : forall p l, graph (script C p l) = gafter C p (trace (script C p l)).
Proof.
  intros p l. induction l as [|c l IH] using rev_ind; [reflexivity|].
  unfold script. rewrite fold_left_app. fold (script C p l). cbn [fold_left]. unfold sstep at 1 2. cbn [graph trace].
  rewrite gafter_app, <- IH. reflexivity.
Qed.

Lemma trace_careful : forall p l, careful_script C p l -> careful C p (trace (script C p l)) /\ settled (trace (script C p l)) = true.
Proof.
  intros p l. induction l as [|c l IH] using rev_ind; intros Hc; [cbn; auto|].
  unfold careful_script in Hc. apply cmds_app in Hc. destruct Hc as [H1 [[H2 H3] _]].
  destruct (IH H1) as [K1 K2]. clear IH.
  pose proof (good_script l _ (good_start p) H1) as G. fold (script C p l) in *.
  assert (Et : trace (script C p (l ++ [c])) = trace (script C p l) ++ calls (names (script C p l)) (graph (script C p l)) c).
  { unfold script. rewrite fold_left_app. reflexivity. }
  rewrite Et. unfold calls. destruct (call (names (script C p l)) (graph (script C p l)) c) as [op|] eqn:Ec; [|rewrite app_nil_r; auto].
  assert (Ho : careful_op (graph (script C p l)) (past_of (script C p l)) op).
  { eapply careful_mono; [|exact H2]. intros x. apply past_red. }
  assert (Hs : settled_step true op = true).
  { destruct c; cbn in Ec; repeat match type of Ec with match ?x with _ => _ end = _ => destruct x; try discriminate end;
      inversion Ec; subst; auto. }
  assert (S1 : careful C p (trace (script C p l) ++ [op])).
  { unfold careful. apply careful_app. split; auto. cbn. split; auto. fold (past_of (script C p l)).
    change (after C (st0 p) (trace (script C p l))) with (gafter C p (trace (script C p l))). rewrite <- trace_graph. exact Ho. }
  assert (S2 : settled (trace (script C p l) ++ [op]) = true) by (rewrite settled_app, K2; auto).
  destruct (defines c) as [[k n]|] eqn:Ed; [|auto]. destruct (replaces k) eqn:R; [|auto].
  destruct (names (script C p l) k n) as [o|] eqn:En; [|auto].
  destruct (good_new _ _ _ _ _ _ G Ec Ed Ho) as (L1 & W1 & E1 & Hp & Hr).
  destruct (new_made _ _ _ _ _ _ _ (g_lnk _ _ G) (g_env _ _ G) Ec Ed) as (_ & _ & _ & _ & M5).
  destruct (Hr o R En) as [H4 _].
  change (op :: [Replace o (fresh (graph (script C p l)))]) with ([op] ++ [Replace o (fresh (graph (script C p l)))]).
  rewrite app_assoc. split.
  - unfold careful. apply careful_app. split; [exact S1|]. cbn [careful_from]. split; [|exact I].
    rewrite past_snoc. fold (past_of (script C p l)).
    assert (Pa : past_after (past_of (script C p l)) op = past_of (script C p l)) by (destruct op; try discriminate M5; auto).
    rewrite Pa. change (after C (st0 p) (trace (script C p l) ++ [op])) with (gafter C p (trace (script C p l) ++ [op])).
    rewrite gafter_snoc, <- trace_graph. exact H4.
  - rewrite settled_app, S2. reflexivity.
Qed.

Theorem script_figures : forall p l, careful_script C p l ->
  (forall e x, node_of (graph (script C p l)) e = Some NEdp \/ node_of (graph (script C p l)) e = Some NCompound ->
     exists v, snd (do_query C (QLambda e x) (graph (script C p l))) = Some v /\
               current C (graph (script C p l)) (QLambda e x) v) /\
  (forall g a q, node_of (graph (script C p l)) g = Some (NGrp a) ->
     exists v, snd (do_query C (QGrp g q) (graph (script C p l))) = Some v /\
               current C (graph (script C p l)) (QGrp g q) v).
Proof.
  intros p l H. destruct (trace_careful p l H) as [H1 H2]. rewrite trace_graph. split.
  - intros e x K. destruct (lambda_right C p _ e x H1 H2 K) as (v & Q1 & Q2). rewrite ask_done in Q1.
    exists v. split; auto. congruence.
  - intros g a q K. destruct (group_right C p _ g a q H1 H2 K) as (v & Q1 & Q2). rewrite ask_done in Q1.
    exists v. split; auto. congruence.
Qed.

(** A compound takes the function of the parameter it is made from. *)
Theorem compound_follows : forall p l m i x y,
  careful_script C p (l ++ [DefCompound m i x y]) -> m <> x ->
  call (names (script C p l)) (graph (script C p l)) (DefCompound m i x y) <> None ->
  follows C p (l ++ [DefCompound m i x y]) m x.
Proof.
  intros p l m i x y Hc Nm Ha. set (c := DefCompound m i x y) in *.
  unfold careful_script in Hc. apply cmds_app in Hc. destruct Hc as [H1 [[H2 _] _]].
  pose proof (good_script l _ (good_start p) H1) as G. fold (script C p l) in *.
  destruct (call (names (script C p l)) (graph (script C p l)) c) as [op|] eqn:Ec; [|congruence]. clear Ha.
  assert (Ho : careful_op (graph (script C p l)) (past_of (script C p l)) op).
  { eapply careful_mono; [|exact H2]. intros z. apply past_red. }
  destruct (good_new _ _ _ _ _ _ G Ec eq_refl Ho) as (L1 & W1 & E1 & Hp & Hr).
  destruct (new_made _ _ _ _ _ _ _ (g_lnk _ _ G) (g_env _ _ G) Ec eq_refl) as (M1 & M2 & _).
  set (d := names (script C p l)) in *. set (s := graph (script C p l)) in *.
  assert (En : names (script C p (l ++ [c])) = define d TEdp m (fresh s)).
  { unfold script. rewrite fold_left_app. fold (script C p l). cbn [fold_left]. unfold sstep. fold s. fold d.
    rewrite Ec. reflexivity. }
  set (s1 := fst (gstep C s op)) in *.
  assert (Es : forall e, ptr (graph (script C p (l ++ [c]))) (SDep e) = ptr s1 (SDep e)).
  { intros e. unfold script. rewrite fold_left_app. fold (script C p l). cbn [fold_left]. unfold sstep, calls. fold s. fold d.
    rewrite Ec. change (defines c) with (Some (TEdp, m)). cbn [replaces graph]. destruct (d TEdp m) as [o|] eqn:Eo; [|reflexivity].
    cbn [fold_left]. fold s1. destruct (Hr o eq_refl eq_refl) as [(N & Hu & H22) T]. cbn [gstep]. rewrite T. cbn [fst].
    destruct (lnk_replace _ _ _ _ L1 (same_type_kd _ _ _ T) N Hu H22) as (_ & _ & _ & _ & _ & _ & _ & Hq & _).
    rewrite Hq. destruct (ptr s1 (SDep e)) as [z|] eqn:Ez; auto. destruct (Nat.eqb_spec z o) as [->|]; auto.
    destruct (l_typed _ _ L1 _ _ Ez) as [T1 _]. cbn in T1.
    assert (K : kd (node_of s1 o) = 4).
    { assert (Lt : o <> fresh s).
      { apply (g_env _ _ G) in Eo. cbn in Eo. fold s in Eo. intros Eq. rewrite Eq in Eo.
        pose proof (proj1 (l_alloc _ _ (g_lnk _ _ G) (fresh s) (le_n _))) as Q. fold s in Q. rewrite Q in Eo. discriminate. }
      destruct (new_made _ _ _ _ _ _ _ (g_lnk _ _ G) (g_env _ _ G) Ec eq_refl) as (_ & _ & _ & M4 & _).
      fold s in M4. fold s1 in M4. rewrite M4 by auto. apply (g_env _ _ G) in Eo. exact Eo. }
    congruence. }
  unfold c in Ec. cbn [call] in Ec. destruct (d TIm i) as [oi|] eqn:Ei; [|discriminate].
  destruct (d TEdp x) as [ox|] eqn:Ex; [|discriminate]. destruct (d TEdp y) as [oy|] eqn:Ey; [|discriminate].
  destruct (ptr s (SDep ox)) as [f|] eqn:Ef; [|discriminate]. destruct (ptr s (SDep oy)) as [f2|] eqn:Ef2; [|discriminate].
  assert (Lx : ox <> fresh s).
  { intros ->. apply (ptr_alive _ _ _ _ (g_lnk _ _ G)) in Ef. fold s in Ef. cbn in Ef. lia. }
  exists (fresh s), ox, f. rewrite En, !Es. repeat split.
  - unfold define. cbn. rewrite Nat.eqb_refl. auto.
  - unfold define. cbn [sort_eqb andb]. destruct (Nat.eqb_spec x m); [congruence|auto].
  - assert (Ew : s1 = fst (gstep C s op)) by reflexivity. rewrite Ew. inversion Ec; subst op. cbn [gstep] in M1 |- *.
    destruct (is_im s oi && is_prob s f && is_prob s f2); [|discriminate M1]. cbn [fst].
    unfold register, point. cbn. unfold upd_slot. cbn. rewrite Nat.eqb_refl. auto.
  - rewrite Hp; auto.
Qed.

End Proofs.

(** ** A test for careful scripts, and a script that goes wrong *)

Section Check.

Context {X V P : Type}.
Variable C : calcs X V P.

Fixpoint careful_cmdsb (s : @sst X V P) (l : list (@cmd X P)) : bool :=
  match l with
  | [] => true
  | c :: r =>
      match call (names s) (graph s) c with
      | Some op => careful_opb (graph s) (redefinitions s) op
      | None => true
      end && match c with Collect o => false | _ => true end && careful_cmdsb (sstep C s c) r
  end.

Lemma careful_cmdsb_ok : forall l (s : @sst X V P), Good (past_of s) s -> careful_cmdsb s l = true ->
  careful_cmds C s l.
Proof.
  induction l as [|c r IH]; intros s G H; cbn in *; auto.
  apply andb_true_iff in H. destruct H as [H H3]. apply andb_true_iff in H. destruct H as [H1 H2].
  assert (Hc : careful_cmd s c).
  { split; [|destruct c; auto; discriminate]. destruct (call (names s) (graph s) c) as [op|]; auto.
    apply careful_opb_ok; auto. destruct G as [L _ _].
    destruct L; constructor; auto. intros o Q. apply l_healthy. intros K. apply Q. apply past_red. exact K. }
  split; auto. apply IH; auto. apply good_step; auto.
Qed.

Lemma scriptb_ok : forall p l, careful_cmdsb (SS (st0 p) (fun _ _ => None) []) l = true -> careful_script C p l.
Proof. intros. apply careful_cmdsb_ok; auto. apply good_start. Qed.

End Check.

(** A measure is redefined; a second demand parameter is made on the new one,
    which then is redefined again. *)
Definition twice : list (@cmd nat nat) :=
  [DefDet 0 1; DefDet 1 2; DefProb 0 0 1 1; DefIm 0 0; DefEdp 0 0 0; DefIm 0 0; DefEdp 1 0 0].

Lemma refute_redefinition : exists (l : list (@cmd nat nat)) c k n o,
  replaces k = true /\ redefines adding 0 l c k n o /\ ~ rewired adding 0 l c k n o.
Proof.
  exists twice, (DefIm 0 0), TIm, 0, 5. split; [reflexivity|]. split.
  - vm_compute. repeat split. discriminate.
  - intros (o' & E & N & H). specialize (H (SBase 4) eq_refl). vm_compute in H, E. congruence.
Qed.

(** A compound made from a parameter that is redefined afterwards. *)
Definition outdated : list (@cmd nat nat) :=
  [DefDet 0 1; DefDet 1 2; DefProb 0 0 1 1; DefProb 1 1 0 0; DefIm 0 0; DefEdp 0 0 0; DefCompound 1 0 0 0].

Lemma refute_compound : exists (l : list (@cmd nat nat)) c m i x y,
  careful_script adding 0 (l ++ [c]) /\ In (DefCompound m i x y) l /\
  defines c = Some (TEdp, x) /\ ~ follows adding 0 (l ++ [c]) m x.
Proof.
  exists outdated, (DefEdp 0 0 1), 1, 0, 0, 0. split; [apply scriptb_ok; vm_compute; reflexivity|].
  split; [cbn; tauto|]. split; [reflexivity|].
  intros (om & ox & f & H1 & H2 & H3 & H4). vm_compute in H1, H2. inversion H1; subst. inversion H2; subst.
  vm_compute in H3, H4. congruence.
Qed.
