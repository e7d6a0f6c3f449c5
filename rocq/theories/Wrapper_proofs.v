(** Proofs about the Python side of the objects. *)

Require Import List Arith Bool Lia.
From Verif Require Import Replaceable Replaceable_proofs Graph Graph_spec Script Script_spec.
From Verif Require Import Graph_proofs Graph_proofs2 Graph_proofs3 Graph_proofs4 Graph_proofs5.
From Verif Require Import Graph_proofs6 Graph_proofs7 Graph_claims_proofs Script_proofs Script_proofs2.
From Verif Require Import Target Target_spec Target_proofs Wrapper Wrapper_spec.
Import ListNotations.

Section Proofs.

Context {X V P : Type}.
Variable C : calcs X V P.
Notation pst := (@pst X V P).
Notation cmd := (@cmd X P).

(** ** The library below a command *)

(** Where a command sends what led to [x]. *)
Definition rewire (s : @sst X V P) (c : cmd) (x : nat) : nat :=
  match call (names s) (graph s) c, defines c with
  | Some _, Some (k, n) =>
      if replaces k then match names s k n with
                         | Some o => if x =? o then fresh (graph s) else x
                         | None => x
                         end
      else x
  | _, _ => x
  end.

Lemma call_shape : forall (s : @sst X V P) c op, call (names s) (graph s) c = Some op -> defines c = None ->
  is_new op = false /\ (forall o o', op <> Replace o o') /\
  (forall t g, op = AddGrp t g -> exists nt ng, c = AddTo nt ng /\ names s TStr nt = Some t /\ names s TGrp ng = Some g) /\
  (forall o, op = Destroy o -> c = Collect o).
Proof.
  intros s c op Ec Ed. destruct c; cbn in Ed, Ec; try discriminate;
    repeat match type of Ec with match ?x with _ => _ end = _ => destruct x eqn:?; try discriminate end;
    inversion Ec; subst; (split; [reflexivity|split; [discriminate|split; [|congruence]]]); try discriminate.
  intros t0 g0 E. injection E as <- <-. eauto.
Qed.

Lemma careful_past : forall (s : @sst X V P) c op, careful_cmd s c -> call (names s) (graph s) c = Some op ->
  careful_op (graph s) (past_of s) op.
Proof.
  intros s c op [H _] Ec. rewrite Ec in H. eapply careful_mono; [|exact H]. intros o. apply past_red.
Qed.

Lemma step_ptr : forall (s : @sst X V P) c sl x, Good (past_of s) s -> careful_cmd s c ->
  ptr (graph s) sl = Some x -> node_of (graph (sstep C s c)) (owner sl) <> None ->
  ((forall t, sl <> SIm t) /\ (forall t k, sl <> SEntry t k) \/ (forall t g, c <> AddTo t g)) ->
  ptr (graph (sstep C s c)) sl = Some (rewire s c x).
Proof.
  intros s c sl x G Hc Hp. pose proof G as [L W E].
  unfold sstep, calls, rewire. cbn [graph].
  destruct (call (names s) (graph s) c) as [op|] eqn:Ec; [|intros; exact Hp].
  pose proof (careful_past _ _ _ Hc Ec) as Ho.
  destruct (defines c) as [[k n]|] eqn:Ed.
  - intros Hx Hsl. destruct (good_new C _ _ _ _ _ _ G Ec Ed Ho) as (L1 & W1 & E1 & Hq & Hr).
    assert (Hs1 : ptr (fst (gstep C (graph s) op)) sl = Some x).
    { rewrite Hq; auto. apply (ptr_alive _ _ _ _ L) in Hp. lia. }
    destruct (replaces k) eqn:R; [|exact Hs1]. destruct (names s k n) as [o|] eqn:En; [|exact Hs1].
    destruct (Hr o eq_refl eq_refl) as [(N & Hu & H22) T]. cbn [fold_left].
    destruct (lnk_replace _ _ _ _ L1 (same_type_kd _ _ _ T) N Hu H22) as (_ & _ & _ & _ & _ & _ & _ & Hy & _).
    cbn [gstep]. rewrite T. cbn [fst]. rewrite Hy, Hs1. destruct (x =? o); auto.
  - cbn [fold_left]. intros Hx Hsl. destruct (call_shape _ _ _ Ec Ed) as (N1 & N2 & N3 & N4).
    pose proof (step_changes C _ _ _ L W Ho) as Ch.
    destruct (ch_ptr _ _ _ _ Ch sl) as [Q|[[_ Q]|[(o & o' & Q & _)|[(t & g & Q & Q2 & _)|[_ [_ Q]]]]]].
    + congruence.
    + congruence.
    + exfalso. eapply N2; eauto.
    + exfalso. destruct (N3 t g Q) as (nt & ng & -> & _). destruct Hsl as [[H1 H2]|H].
      * destruct Q2 as [Q2|Q2]; [eapply H1|eapply H2]; eauto.
      * eapply H; eauto.
    + congruence.
Qed.

Lemma sk_inj : forall a b, sk a = sk b -> a = b.
Proof. intros [] []; cbn; intros; congruence. Qed.

Lemma step_node : forall (s : @sst X V P) c a, Good (past_of s) s -> careful_cmd s c ->
  a <> fresh (graph s) -> node_of (graph (sstep C s c)) a <> None -> node_of (graph s) a <> None.
Proof.
  intros s c a G Hc Na. pose proof G as [L W E]. unfold sstep, calls. cbn [graph].
  destruct (call (names s) (graph s) c) as [op|] eqn:Ec; [|auto].
  pose proof (careful_past _ _ _ Hc Ec) as Ho. destruct (defines c) as [[k n]|] eqn:Ed.
  - destruct (good_new C _ _ _ _ _ _ G Ec Ed Ho) as (L1 & W1 & E1 & Hq & Hr).
    destruct (new_made C _ _ _ _ _ _ _ L E Ec Ed) as (_ & _ & _ & M4 & _).
    destruct (replaces k) eqn:R; [|cbn [fold_left]; now rewrite M4].
    destruct (names s k n) as [o|] eqn:En; [|cbn [fold_left]; now rewrite M4].
    destruct (Hr o eq_refl eq_refl) as [Cr T]. cbn [fold_left]. intros H.
    rewrite <- (M4 a Na). intros Hn. apply H.
    pose proof (step_changes C _ _ _ L1 W1 Cr) as Ch.
    destruct (ch_node _ _ _ _ Ch a) as [Q|[[_ [_ Q]]|[[Q _]|[(x & y & z & Q & _)|[(x & y & z & Q & _)|[(x & y & z & Q & _)|(x & y & z & Q & _)]]]]]];
      congruence || discriminate.
  - cbn [fold_left]. pose proof (step_changes C _ _ _ L W Ho) as Ch.
    destruct (call_shape _ _ _ Ec Ed) as (N1 & _).
    destruct (ch_node _ _ _ _ Ch a) as [Q|[[_ [_ Q]]|[[_ [_ Q]]|[(x & y & z & _ & Q & _)|[(x & y & z & _ & Q & _)|[(x & y & z & _ & Q & _)|(x & y & z & _ & Q & _)]]]]]];
      congruence.
Qed.

(** What came about by redefinition. *)
Lemma step_past : forall (s : @sst X V P) c o, In o (past_of (sstep C s c)) <->
  In o (past_of s) \/
  (o = fresh (graph s) /\ call (names s) (graph s) c <> None /\
   exists k n, defines c = Some (k, n) /\ replaces k = true /\ names s k n <> None).
Proof.
  intros s c o. rewrite !past_red. unfold redefinitions, sstep, calls. cbn [trace].
  rewrite flat_map_app, in_app_iff. destruct (call (names s) (graph s) c) as [op|] eqn:Ec.
  - destruct (defines c) as [[k n]|] eqn:Ed.
    + assert (Hop : forall a b, op <> Replace a b).
      { intros a b ->. destruct c; cbn in Ec; try discriminate;
          repeat match type of Ec with match ?x with _ => _ end = _ => destruct x; try discriminate end. }
      assert (Ho : forall l, In o (flat_map (fun op : @gop X P => match op with Replace _ o => [o] | _ => [] end) (op :: l)) <->
                             In o (flat_map (fun op : @gop X P => match op with Replace _ o => [o] | _ => [] end) l)).
      { intros l. cbn. destruct op; cbn; try tauto. exfalso. eapply Hop; eauto. }
      rewrite Ho. split; intros [Q|Q]; auto.
      * right. destruct (replaces k) eqn:R; [|destruct Q]. destruct (names s k n) as [a|] eqn:En; [|destruct Q].
        destruct Q as [<-|[]]. split; auto. split; [discriminate|]. exists k, n. rewrite En. repeat split; auto; discriminate.
      * right. destruct Q as (-> & _ & k' & n' & E & R & En). injection E as <- <-. rewrite R.
        destruct (names s k n); [cbn; auto|congruence].
    + destruct (call_shape _ _ _ Ec Ed) as (_ & N2 & _). split; intros [Q|Q]; auto.
      * exfalso. cbn in Q. destruct op; cbn in Q; try tauto. eapply N2; eauto.
      * destruct Q as (_ & _ & k & n & E & _). discriminate.
  - cbn. split; intros [Q|Q]; auto; [destruct Q|]. destruct Q as (_ & Q & _). congruence.
Qed.

(** ** Invariants *)

(** The sort of a wrapper, numbered as the objects are. *)
Definition kw (w : option wrapper) : nat :=
  match w with
  | None => 0 | Some WDet => 1 | Some (WProb _ _) => 2 | Some (WIm _) => 3 | Some (WEdp _ _ _) => 4
  | Some WFrag => 5 | Some WLoss => 6 | Some (WGrp _ _ _ _) => 7 | Some (WStr _) => 8
  end.

Record Inv (s : pst) : Prop := {
  i_good : Good (past_of (base s)) (base s);
  i_loose : good (base s);
  i_ids : forall k n o, names (base s) k n = Some o -> k <> TStr -> ids s o = Some n;
  i_below : forall o, fresh (graph (base s)) <= o -> ids s o = None /\ wraps s o = None;
  i_kind : forall k n o, names (base s) k n = Some o -> kw (wraps s o) = sk k;
  i_named : forall k n o, kw (wraps s o) = sk k -> ids s o = Some n -> names (base s) k n <> None;
  i_once : forall k o o', replaces k = true -> kw (wraps s o) = sk k -> kw (wraps s o') = sk k ->
    ids s o = ids s o' -> ~ In o (past_of (base s)) -> ~ In o' (past_of (base s)) -> o = o';
  i_says : forall o w sl k v, wraps s o = Some w -> exists_in s o -> says o w sl k v ->
    exists n x, ids s v = Some n /\ kw (wraps s v) = sk k /\ ptr (graph (base s)) sl = Some x /\
      names (base s) k n <> None /\
      if replaces k then names (base s) k n = Some x else x = v
}.

(** A name's object moves as the pointers to it do. *)
Lemma step_name : forall (s : pst) c k n x, Inv s -> replaces k = true -> names (base s) k n = Some x ->
  names (sstep C (base s) c) k n = Some (rewire (base s) c x).
Proof.
  intros s c k n x I R Hn. rewrite step_names. unfold rewire.
  destruct (call (names (base s)) (graph (base s)) c) as [op|]; [|exact Hn].
  destruct (defines c) as [[k' n']|]; [|exact Hn].
  destruct (sort_eqb k k' && (n =? n')) eqn:E.
  - apply andb_true_iff in E. destruct E as [E1 E2]. apply sort_eqb_spec in E1. apply Nat.eqb_eq in E2. subst k' n'.
    rewrite R, Hn, Nat.eqb_refl. reflexivity.
  - rewrite Hn. destruct (replaces k') eqn:R'; auto. destruct (names (base s) k' n') as [o|] eqn:En; auto.
    destruct (Nat.eqb_spec x o) as [->|]; auto. exfalso.
    assert (k = k').
    { apply sk_inj. rewrite <- (i_kind _ I _ _ _ Hn). apply (i_kind _ I _ _ _ En). }
    subst k'. assert (k <> TStr) by (intros ->; discriminate).
    pose proof (i_ids _ I _ _ _ Hn H) as Q1. pose proof (i_ids _ I _ _ _ En H) as Q2. rewrite Q1 in Q2. injection Q2 as ->.
    rewrite sort_eqb_refl, Nat.eqb_refl in E. discriminate.
Qed.

(** A function stays where it is. *)
Lemma rewire_fixed : forall (s : @sst X V P) c k x, Good (past_of s) s -> replaces k = false -> kd (node_of (graph s) x) = sk k ->
  rewire s c x = x.
Proof.
  intros s c k x G R K. unfold rewire. destruct (call _ _ c); auto. destruct (defines c) as [[k' n']|]; auto.
  destruct (replaces k') eqn:R'; auto. destruct (names s k' n') as [o|] eqn:En; auto.
  destruct (Nat.eqb_spec x o) as [->|]; auto. exfalso. apply (g_env _ _ G) in En. rewrite K in En.
  apply sk_inj in En. congruence.
Qed.

Lemma says_tk : forall o w sl k v, says o w sl k v -> tk sl = sk k /\ owner sl = o /\
  (forall t, sl <> SIm t) /\ (forall t j, sl <> SEntry t j).
Proof. intros o w sl k v []; cbn; repeat split; discriminate. Qed.

(** Which wrappers a command makes or alters. *)
Lemma step_wraps : forall (s : pst) c o, o <> fresh (graph (base s)) ->
  wraps (pstep C s c) o = wraps s o \/
  (exists t g ot og, c = AddTo t g /\ names (base s) TStr t = Some ot /\ names (base s) TGrp g = Some og /\
     snd (gstep C (graph (base s)) (AddGrp ot og)) = Done /\ o = ot /\
     wraps s ot = Some (WStr None) /\ wraps (pstep C s c) ot = Some (WStr (get_IM (wraps s) og))).
Proof.
  intros s c o No. unfold pstep. cbn [wraps].
  destruct (call (names (base s)) (graph (base s)) c) as [op|] eqn:Ec; [|auto].
  destruct c; cbn [defines]; try (left; apply upd_other; auto); auto.
  cbn [call] in Ec. destruct (names (base s) TStr t) as [ot|] eqn:Et; [|auto].
  destruct (names (base s) TGrp g) as [og|] eqn:Eg; [|auto].
  destruct (snd (gstep C (graph (base s)) (AddGrp ot og))) eqn:Es; auto.
  destruct (wraps s ot) as [[| | | | | | |[i|]]|] eqn:Ew; auto.
  destruct (Nat.eq_dec o ot) as [->|N]; [|left; apply upd_other; auto].
  right. exists t, g, ot, og. rewrite upd_same. repeat split; auto.
Qed.

Lemma step_kw : forall (s : pst) c o, o <> fresh (graph (base s)) -> kw (wraps (pstep C s c) o) = kw (wraps s o).
Proof.
  intros s c o No. destruct (step_wraps s c o No) as [->|(t & g & ot & og & _ & _ & _ & _ & -> & E1 & E2)]; auto.
  rewrite E1, E2. reflexivity.
Qed.

Lemma step_ids : forall (s : pst) c o, o <> fresh (graph (base s)) -> ids (pstep C s c) o = ids s o.
Proof.
  intros s c o No. unfold pstep. cbn [ids]. destruct (call _ _ c); auto.
  destruct (defines c) as [[[] n]|]; auto; apply upd_other; auto.
Qed.

Lemma step_ids_new : forall (s : pst) c op k n, call (names (base s)) (graph (base s)) c = Some op -> defines c = Some (k, n) ->
  k <> TStr -> ids (pstep C s c) (fresh (graph (base s))) = Some n.
Proof.
  intros s c op k n Ec Ed N. unfold pstep. cbn [ids]. rewrite Ec, Ed. destruct k; try congruence; apply upd_same.
Qed.

Lemma step_wraps_new : forall (s : pst) c op k n, call (names (base s)) (graph (base s)) c = Some op -> defines c = Some (k, n) ->
  wraps (pstep C s c) (fresh (graph (base s))) = made (names (base s)) c /\ kw (made (names (base s)) c) = sk k.
Proof.
  intros s c op k n Ec Ed. unfold pstep. cbn [wraps]. rewrite Ec.
  destruct c; cbn in Ed; try discriminate; injection Ed as <- <-; cbn [defines]; rewrite upd_same; split; auto; cbn in Ec |- *;
    repeat match type of Ec with match ?x with _ => _ end = _ => destruct x; try discriminate end; auto.
Qed.

Lemma step_idle : forall (s : pst) c, call (names (base s)) (graph (base s)) c = None \/ defines c = None ->
  ids (pstep C s c) = ids s /\ (forall o, wraps s o = None -> wraps (pstep C s c) o = None).
Proof.
  intros s c H. unfold pstep. cbn [ids wraps]. destruct (call (names (base s)) (graph (base s)) c) as [op|] eqn:Ec; [|auto].
  destruct H as [H|H]; [discriminate|]. rewrite H. split; auto. intros o Ho.
  destruct c; auto. cbn [call] in Ec. destruct (names (base s) TStr t) as [ot|] eqn:Et; auto.
  destruct (names (base s) TGrp g) as [og|] eqn:Eg; auto.
  destruct (snd (gstep C (graph (base s)) (AddGrp ot og))) eqn:Es; auto.
  destruct (wraps s ot) as [[| | | | | | |[i|]]|] eqn:Ew; auto.
  destruct (Nat.eq_dec o ot) as [->|N]; [congruence|]. rewrite upd_other; auto.
Qed.

(** The new object's inputs. *)
Lemma new_heard : forall (s : pst) c op k0 n0 w sl k v, Inv s -> tidy_cmd (base s) c -> heard (base s) c = c ->
  call (names (base s)) (graph (base s)) c = Some op -> defines c = Some (k0, n0) ->
  made (names (base s)) c = Some w -> says (fresh (graph (base s))) w sl k v ->
  exists n, names (base s) k n = Some v /\ k <> k0 /\ k <> TStr /\
    ptr (graph (sstep C (base s) c)) sl = Some v.
Proof.
  intros s c op k0 n0 w sl k v I Ht Hh Ec Ed Hm Hs.
  pose proof (i_good _ I) as G.
  pose proof (i_loose _ I) as Gd.
  destruct (step_does C _ _ Gd Ht) as [D _]. rewrite Hh in D. clear Hh.
  assert (En : names (sstep C (base s) c) k0 n0 = Some (fresh (graph (base s)))).
  { rewrite step_names, Ec, Ed, sort_eqb_refl, Nat.eqb_refl. reflexivity. }
  assert (Bad : forall s', same_objects (base s) s' -> names s' k0 n0 = Some (fresh (graph (base s))) -> False).
  { intros s' (Q & _) Q2. rewrite Q in Q2. eapply names_below in Q2; eauto. lia. }
  inversion D; subst; cbn in Ed; try discriminate; try (exfalso; eapply Bad; eauto; fail);
    injection Ed as <- <-; cbn in Hm;
    repeat match goal with H : names (base s) _ _ = Some _ |- _ => rewrite H in Hm end;
    cbn in Hm; rewrite ?H1, ?H2, ?H3 in Hm; injection Hm as <-;
    match goal with H : makes _ _ _ _ _ _ |- _ => destruct H as (o & _ & _ & _ & Q1 & _ & _ & _ & Q2 & _) end;
    rewrite En in Q1; injection Q1 as <-;
    inversion Hs; subst; eexists; (split; [eassumption|split; [discriminate|split; [discriminate|]]]);
    apply Q2; cbn; auto.
Qed.

Lemma made_heard : forall (s : @sst X V P) c, made (names s) (heard s c) = made (names s) c.
Proof. intros s c. destruct c; auto. destruct d as [d|]; auto. cbn. destruct (names s TLoss d) eqn:Q; auto. cbn. now rewrite Q. Qed.

Lemma tidy_heard : forall (s : @sst X V P) c, tidy_cmd s c -> tidy_cmd s (heard s c).
Proof. intros s c H. destruct c; auto. destruct d as [d|]; auto. cbn. destruct (names s TLoss d); exact H. Qed.

Lemma new_says : forall (s : pst) c op k0 n0 w sl k v, Inv s -> careful_cmd (base s) c ->
  call (names (base s)) (graph (base s)) c = Some op -> defines c = Some (k0, n0) ->
  made (names (base s)) c = Some w -> says (fresh (graph (base s))) w sl k v ->
  exists n, names (base s) k n = Some v /\ k <> k0 /\ k <> TStr /\
    ptr (graph (sstep C (base s) c)) sl = Some v.
Proof.
  intros s c op k0 n0 w sl k v I Hc Ec Ed Hm Hs.
  assert (Ht : tidy_cmd (base s) c) by (destruct c; cbn; auto; exact (proj2 Hc)).
  rewrite <- step_heard. eapply new_heard; eauto.
  - apply tidy_heard; auto.
  - apply heard_same, heard_known.
  - rewrite call_heard. exact Ec.
  - rewrite defines_heard. exact Ed.
  - rewrite made_heard. exact Hm.
Qed.

Lemma step_sst : forall (s : pst) c, base (pstep C s c) = sstep C (base s) c.
Proof. reflexivity. Qed.

Lemma inv_step : forall (s : pst) c, Inv s -> careful_cmd (base s) c -> Inv (pstep C s c).
Proof.
  intros s c I Hc. pose proof (i_good _ I) as G. pose proof G as [L W E].
  set (f := fresh (graph (base s))).
  assert (G' : Good (past_of (sstep C (base s) c)) (sstep C (base s) c)) by (apply good_step; auto).
  assert (Ht : tidy_cmd (base s) c) by (destruct c; cbn; auto; exact (proj2 Hc)).
  assert (Fr : f <= fresh (graph (sstep C (base s) c))) by (apply step_fresh; auto).
  assert (Nb : forall k n o, names (base s) k n = Some o -> o <> f).
  { intros k n o Q ->. eapply names_below in Q; eauto. unfold f in Q. lia. }
  assert (Bl : forall o, o <> f -> ids (pstep C s c) o = ids s o) by (intros; apply step_ids; auto).
  assert (Kw : forall o, o <> f -> kw (wraps (pstep C s c) o) = kw (wraps s o)) by (intros; apply step_kw; auto).
  assert (Wf : forall o, wraps s o <> None -> o <> f).
  { intros o Q ->. apply Q. apply (i_below _ I). auto. }
  assert (If : forall o n, ids s o = Some n -> o <> f).
  { intros o n Q ->. rewrite (proj1 (i_below _ I f (le_n _))) in Q. discriminate. }
  (* a defining command or not *)
  assert (Cs : (exists op k0 n0, call (names (base s)) (graph (base s)) c = Some op /\ defines c = Some (k0, n0)) \/
               (call (names (base s)) (graph (base s)) c = None \/ defines c = None)).
  { destruct (call (names (base s)) (graph (base s)) c) as [op|]; [|auto]. destruct (defines c) as [[k0 n0]|]; [|auto]. eauto 6. }
  assert (Nf : forall k n, names (sstep C (base s) c) k n = Some f ->
     exists op, call (names (base s)) (graph (base s)) c = Some op /\ defines c = Some (k, n)).
  { intros k n Q. rewrite step_names in Q. destruct (call (names (base s)) (graph (base s)) c) as [op|]; [|exfalso; eapply Nb; eauto].
    destruct (defines c) as [[k0 n0]|]; [|exfalso; eapply Nb; eauto].
    destruct (sort_eqb k k0 && (n =? n0)) eqn:Q2; [|exfalso; eapply Nb; eauto].
    apply andb_true_iff in Q2. destruct Q2 as [E1 E2]. apply sort_eqb_spec in E1. apply Nat.eqb_eq in E2. subst. eauto. }
  assert (No : forall k n o, names (sstep C (base s) c) k n = Some o -> o <> f -> names (base s) k n = Some o).
  { intros k n o Q N. rewrite step_names in Q. destruct (call (names (base s)) (graph (base s)) c) as [op|]; [|auto].
    destruct (defines c) as [[k0 n0]|]; [|auto]. destruct (sort_eqb k k0 && (n =? n0)); [|auto]. injection Q as Q. unfold f in N. congruence. }
  assert (Nn : forall k n, names (base s) k n <> None -> names (sstep C (base s) c) k n <> None).
  { intros k n Q. rewrite step_names. destruct (call (names (base s)) (graph (base s)) c) as [op|]; [|auto].
    destruct (defines c) as [[k0 n0]|]; [|auto]. destruct (sort_eqb k k0 && (n =? n0)); [discriminate|auto]. }
  assert (Kf : forall k, kw (wraps (pstep C s c) f) = sk k -> exists op n, call (names (base s)) (graph (base s)) c = Some op /\ defines c = Some (k, n)).
  { intros k Q. destruct Cs as [(op & k0 & n0 & Ec & Ed)|Cs].
    - destruct (step_wraps_new s c op k0 n0 Ec Ed) as [Q1 Q2]. fold f in Q1. rewrite Q1, Q2 in Q. apply sk_inj in Q. subst. eauto.
    - destruct (step_idle s c Cs) as [_ Q1]. rewrite Q1 in Q by (apply (i_below _ I); auto). destruct k; discriminate. }
  constructor; rewrite ?step_sst.
  - exact G'.
  - apply step_does; auto. apply (i_loose _ I).
  - intros k n o Q Nk. destruct (Nat.eq_dec o f) as [->|N].
    + destruct (Nf _ _ Q) as (op & Ec & Ed). eapply step_ids_new; eauto.
    + rewrite Bl by auto. eapply (i_ids _ I); eauto.
  - intros o Ho. destruct (Nat.eq_dec o f) as [->|N].
    + destruct Cs as [(op & k0 & n0 & Ec & Ed)|Cs].
      * exfalso. assert (Q : names (sstep C (base s) c) k0 n0 = Some f).
        { rewrite step_names, Ec, Ed, sort_eqb_refl, Nat.eqb_refl. reflexivity. }
        eapply names_below in Q; eauto. lia.
      * destruct (step_idle s c Cs) as [Q1 Q2]. rewrite Q1. split; [|apply Q2]; apply (i_below _ I); auto.
    + assert (f <= o) by lia. rewrite Bl by auto. split; [apply (i_below _ I); auto|].
      destruct (step_wraps s c o N) as [->|(t & g & ot & og & _ & _ & _ & _ & -> & Q & _)]; [apply (i_below _ I); auto|].
      rewrite (proj2 (i_below _ I _ H)) in Q. discriminate.
  - intros k n o Q. destruct (Nat.eq_dec o f) as [->|N].
    + destruct (Nf _ _ Q) as (op & Ec & Ed). destruct (step_wraps_new s c op k n Ec Ed) as [Q1 Q2]. fold f in Q1. rewrite Q1. exact Q2.
    + rewrite Kw by auto. eapply (i_kind _ I); eauto.
  - intros k n o Q1 Q2. destruct (Nat.eq_dec o f) as [->|N].
    + destruct (Kf k Q1) as (op & n' & Ec & Ed). assert (Kd : k = TStr \/ k <> TStr) by (destruct k; (left; reflexivity) || (right; discriminate)).
      destruct Kd as [->|Kd].
      2:{ pose proof (step_ids_new s c op k n' Ec Ed Kd) as Q3. fold f in Q3. rewrite Q3 in Q2. injection Q2 as ->.
          rewrite step_names, Ec, Ed, sort_eqb_refl, Nat.eqb_refl. discriminate. }
      unfold pstep in Q2. cbn [ids] in Q2. rewrite Ec, Ed in Q2. exfalso. eapply If; eauto.
    + rewrite Kw in Q1 by auto. rewrite Bl in Q2 by auto. apply Nn. eapply (i_named _ I); eauto.
  - intros k o o' R K1 K2 Hi P1 P2.
    assert (Q : forall a b, kw (wraps (pstep C s c) a) = sk k -> kw (wraps (pstep C s c) b) = sk k ->
              ids (pstep C s c) a = ids (pstep C s c) b -> ~ In a (past_of (sstep C (base s) c)) -> a = f -> b <> f -> False).
    { intros a b A1 A2 A3 A4 -> Nbf. destruct (Kf k A1) as (op & n & Ec & Ed).
      assert (Nk : k <> TStr) by (intros ->; discriminate).
      pose proof (step_ids_new s c op k n Ec Ed Nk) as A5. fold f in A5. rewrite A5 in A3. rewrite Bl in A3 by auto. rewrite Kw in A2 by auto.
      pose proof (i_named _ I k n b A2 (eq_sym A3)) as Nm.
      apply A4. apply step_past. right. split; [reflexivity|]. split; [congruence|]. exists k, n. auto. }
    destruct (Nat.eq_dec o f) as [Eo|N1]; destruct (Nat.eq_dec o' f) as [Eo'|N2]; try congruence.
    + exfalso. eapply (Q o o'); eauto.
    + exfalso. eapply (Q o' o); eauto.
    + rewrite Kw in K1, K2 by auto. rewrite !Bl in Hi by auto.
      eapply (i_once _ I); eauto; intros Q3; [apply P1|apply P2]; apply step_past; auto.
  - intros o w sl k v Hw Ha Hs. destruct (Nat.eq_dec o f) as [->|N].
    + destruct Cs as [(op & k0 & n0 & Ec & Ed)|Cs].
      * destruct (step_wraps_new s c op k0 n0 Ec Ed) as [Q1 Q2]. fold f in Q1. rewrite Q1 in Hw.
        destruct (new_says s c op k0 n0 w sl k v I Hc Ec Ed Hw Hs) as (n & Hv & Nk & Ns & Hp).
        assert (Hv' : names (sstep C (base s) c) k n = Some v).
        { rewrite step_names, Ec, Ed. destruct (sort_eqb k k0) eqn:Q; [apply sort_eqb_spec in Q; congruence|exact Hv]. }
        exists n, v. rewrite Bl by (eapply Nb; eauto). rewrite Kw by (eapply Nb; eauto).
        split; [eapply (i_ids _ I); eauto|]. split; [eapply (i_kind _ I); eauto|]. split; [exact Hp|].
        split; [congruence|]. destruct (replaces k); auto.
      * destruct (step_idle s c Cs) as [_ Q1]. rewrite Q1 in Hw by (apply (i_below _ I); auto). discriminate.
    + destruct (step_wraps s c o N) as [Q|(t & g & ot & og & _ & _ & _ & _ & -> & _ & Q)].
      2:{ rewrite Q in Hw. injection Hw as <-. inversion Hs. }
      rewrite Q in Hw.
      assert (Ha' : exists_in s o) by (eapply step_node; eauto).
      destruct (i_says _ I o w sl k v Hw Ha' Hs) as (n & x & H1 & H2 & H3 & H4 & H5).
      destruct (says_tk _ _ _ _ _ Hs) as (T1 & T2 & T3 & T4).
      exists n, (rewire (base s) c x). rewrite Bl by (eapply If; eauto). rewrite Kw by (eapply If; eauto).
      split; [exact H1|]. split; [exact H2|]. split.
      { apply step_ptr; auto. rewrite T2. exact Ha. }
      split; [auto|]. destruct (replaces k) eqn:R.
      * eapply step_name; eauto.
      * subst x. eapply rewire_fixed; eauto. destruct (l_typed _ _ L _ _ H3) as [T _]. congruence.
Qed.

Lemma inv_start : forall p, Inv (PS (SS (st0 p) (fun _ _ => None) []) (fun _ => None) (fun _ => None)).
Proof.
  intros p. constructor; cbn; try discriminate; auto.
  - apply good_start.
  - split; [apply loose_st0|]. intros k n o Q. discriminate.
  - intros [] ? ? ? ? ? ? ?; discriminate.
Qed.

Lemma base_fold : forall l (s : pst), base (fold_left (pstep C) l s) = fold_left (sstep C) l (base s).
Proof. induction l as [|c r IH]; intros s; cbn; auto. rewrite IH. reflexivity. Qed.

Lemma base_pscript : forall p l, base (pscript C p l) = script C p l.
Proof. intros. unfold pscript. rewrite base_fold. reflexivity. Qed.

Lemma inv_cmds : forall l (s : pst), Inv s -> careful_cmds C (base s) l -> Inv (fold_left (pstep C) l s).
Proof.
  induction l as [|c r IH]; intros s I H; cbn in *; auto. destruct H as [H1 H2]. apply IH; auto. apply inv_step; auto.
Qed.

Lemma inv_script : forall p l, careful_script C p l -> Inv (pscript C p l).
Proof. intros p l H. apply inv_cmds; auto. apply inv_start. Qed.

(** What is used and what is said. *)
Lemma names_true : forall p l o w sl k v, careful_script C p l ->
  let s := pscript C p l in
  wraps s o = Some w -> exists_in s o -> says o w sl k v ->
  exists n, ids s v = Some n /\
    if replaces k then exists x, uses s sl x /\ means s k n x else uses s sl v.
Proof.
  intros p l o w sl k v Hc s Hw Ha Hs. pose proof (inv_script p l Hc) as I.
  destruct (i_says _ I o w sl k v Hw Ha Hs) as (n & x & H1 & _ & H3 & _ & H5).
  exists n. split; auto. destruct (replaces k); [eauto|subst; exact H3].
Qed.

Lemma wraps_kept : forall r (s : pst) o w, Inv s -> careful_cmds C (base s) r -> wraps s o = Some w ->
  (forall i, w <> WStr i) -> wraps (fold_left (pstep C) r s) o = Some w.
Proof.
  induction r as [|d r IH]; intros s o w Is Hr Hw Nw; cbn in *; auto. destruct Hr as [Hr1 Hr2]. apply IH; auto.
  - apply inv_step; auto.
  - destruct (step_wraps s d o) as [->|(t & g & ot & og & _ & _ & _ & _ & -> & Q & _)]; auto.
    + intros ->. rewrite (proj2 (i_below _ Is _ (le_n _))) in Hw. discriminate.
    + rewrite Q in Hw. injection Hw as <-. exfalso. eapply Nw; eauto.
Qed.

(** What a definition gives is remembered for ever. *)
Lemma given : forall p l c l' k0 n0 o, careful_script C p (l ++ c :: l') ->
  defines c = Some (k0, n0) -> k0 <> TStr -> call (names (script C p l)) (graph (script C p l)) c <> None ->
  names (script C p (l ++ [c])) k0 n0 = Some o ->
  exists w, wraps (pscript C p (l ++ c :: l')) o = Some w /\ ids (pscript C p (l ++ c :: l')) o = Some n0 /\
    forall r v, shows w r v <-> exists k n, gives c r k n /\ names (script C p l) k n = Some v.
Proof.
  intros p l c l' k0 n0 o Hc Ed Nk Ec Ho.
  replace (l ++ c :: l') with ((l ++ [c]) ++ l') in * by (rewrite <- app_assoc; reflexivity).
  assert (Hc1 : careful_script C p (l ++ [c])) by (eapply careful_app; eauto).
  destruct (call (names (script C p l)) (graph (script C p l)) c) as [op|] eqn:Eop; [|congruence]. clear Ec.
  assert (Eo : o = fresh (graph (script C p l))).
  { rewrite script_snoc, step_names, Eop, Ed, sort_eqb_refl, Nat.eqb_refl in Ho. cbn [andb] in Ho. congruence. }
  assert (Es : pscript C p (l ++ [c]) = pstep C (pscript C p l) c) by (unfold pscript; rewrite fold_left_app; reflexivity).
  pose proof Eop as Eop'. rewrite <- base_pscript in Eop', Eo.
  destruct (step_wraps_new _ c op k0 n0 Eop' Ed) as [Q K]. rewrite <- Eo, <- Es in Q. rewrite base_pscript in Q, K.
  destruct (made (names (script C p l)) c) as [w|] eqn:Hm; [|destruct k0; discriminate].
  assert (Nw : forall i, w <> WStr i) by (intros i ->; destruct k0; (discriminate K) || congruence).
  assert (Hr : careful_cmds C (base (pscript C p (l ++ [c]))) l').
  { apply cmds_app in Hc. destruct Hc as [_ Hc]. unfold pscript. rewrite base_fold. exact Hc. }
  pose proof (inv_script p (l ++ [c]) Hc1) as I1.
  exists w. split; [|split].
  - unfold pscript in *. rewrite fold_left_app. apply wraps_kept; auto.
  - pose proof (step_ids_new _ c op k0 n0 Eop' Ed Nk) as Q2. rewrite <- Eo, <- Es in Q2.
    clear - Q2 I1 Hr. unfold pscript in *. rewrite fold_left_app. set (s := fold_left (pstep C) (l ++ [c]) _) in *. clearbody s.
    revert s I1 Hr Q2. induction l' as [|d r IH]; intros s I1 Hr Q2; cbn [fold_left] in *; auto.
    destruct Hr as [Hr1 Hr2]. apply IH; auto; [apply inv_step; auto|]. rewrite step_ids; auto.
    intros ->. rewrite (proj1 (i_below _ I1 _ (le_n _))) in Q2. discriminate.
  - clear - Hm Ed Eop. intros r v. split.
    + intros H. destruct c; cbn in Ed, Hm, Eop; try discriminate;
        repeat match type of Hm with match ?x with _ => _ end = _ => destruct x eqn:?; try discriminate end;
        injection Hm as <-; inversion H; subst; try (do 2 eexists; split; [constructor|eassumption]).
      * destruct c; [|discriminate]. do 2 eexists; split; [constructor|eassumption].
      * destruct d as [d|]; [|discriminate]. do 2 eexists; split; [constructor|]. cbn in *. congruence.
    + intros (k & n & H & Hn).
      destruct H; cbn in Hm; rewrite ?Hn in Hm;
        repeat match type of Hm with match ?x with _ => _ end = _ => destruct x eqn:?; try discriminate end;
        injection Hm as <-; constructor.
Qed.

(** The accessor is right until its name is defined again. *)
Lemma accessor_iff : forall p l c l' k0 n0 o w sl k v, careful_script C p (l ++ c :: l') ->
  defines c = Some (k0, n0) -> call (names (script C p l)) (graph (script C p l)) c <> None ->
  names (script C p (l ++ [c])) k0 n0 = Some o -> wraps (pscript C p (l ++ [c])) o = Some w ->
  exists_in (pscript C p (l ++ c :: l')) o ->
  says o w sl k v -> replaces k = true ->
  exists n, ids (pscript C p (l ++ c :: l')) v = Some n /\
    (uses (pscript C p (l ++ c :: l')) sl v <-> ~ redefined_in C p (l ++ [c]) l' k n).
Proof.
  intros p l c l' k0 n0 o w sl k v Hc Ed Ec Ho Hw Ha Hs R.
  pose proof (inv_script p _ Hc) as I'.
  replace (l ++ c :: l') with ((l ++ [c]) ++ l') in * by (rewrite <- app_assoc; reflexivity).
  pose proof (careful_app C _ _ _ Hc) as Hc1. pose proof (careful_app C _ _ _ Hc1) as Hc0.
  pose proof (inv_script p l Hc0) as I.
  assert (Hcc : careful_cmd (script C p l) c) by (apply cmds_app in Hc1; destruct Hc1 as [_ [H _]]; exact H).
  assert (Es : pscript C p (l ++ [c]) = pstep C (pscript C p l) c) by (unfold pscript; rewrite fold_left_app; reflexivity).
  assert (Hw' : wraps (pscript C p ((l ++ [c]) ++ l')) o = Some w).
  { unfold pscript. rewrite fold_left_app. apply wraps_kept; auto.
    - apply (inv_script p (l ++ [c])). auto.
    - apply cmds_app in Hc. destruct Hc as [_ Hc]. rewrite base_fold. exact Hc.
    - intros i ->. inversion Hs. }
  destruct (call (names (script C p l)) (graph (script C p l)) c) as [op|] eqn:Eop; [|congruence]. clear Ec.
  assert (Eo : o = fresh (graph (script C p l))).
  { rewrite script_snoc, step_names, Eop, Ed, sort_eqb_refl, Nat.eqb_refl in Ho. cbn [andb] in Ho. congruence. }
  rewrite <- base_pscript in Eop, Eo, Hcc.
  rewrite Es in Hw. destruct (step_wraps_new _ c op k0 n0 Eop Ed) as [Q _]. rewrite Eo in Hw, Hs. rewrite Q in Hw.
  destruct (new_says _ c op k0 n0 w sl k v I Hcc Eop Ed Hw Hs) as (n & Hv & Nk & Ns & _).
  assert (Hv' : names (script C p (l ++ [c])) k n = Some v).
  { rewrite base_pscript in Hv, Eop. rewrite script_snoc, step_names, Eop, Ed.
    destruct (sort_eqb k k0) eqn:Q2; [apply sort_eqb_spec in Q2; congruence|cbn [andb]; exact Hv]. }
  rewrite <- Eo in Hs.
  destruct (i_says _ I' o w sl k v Hw' Ha Hs) as (n' & x & H1 & _ & H3 & _ & H5). rewrite R in H5.
  assert (n' = n).
  { assert (ids (pscript C p (l ++ [c])) v = Some n).
    { rewrite Es, step_ids; [eapply (i_ids _ I); eauto|].
      pose proof (names_below _ _ _ _ (i_good _ I) Hv). lia. }
    assert (Keep : forall r (s : pst) a m, Inv s -> careful_cmds C (base s) r -> ids s a = Some m -> ids (fold_left (pstep C) r s) a = Some m).
    { induction r as [|d r IH]; intros s a m Is Hr Hm; cbn in *; auto. destruct Hr as [Hr1 Hr2]. apply IH; auto.
      - apply inv_step; auto.
      - rewrite step_ids; auto. intros ->. rewrite (proj1 (i_below _ Is _ (le_n _))) in Hm. discriminate. }
    assert (Q2 : ids (pscript C p ((l ++ [c]) ++ l')) v = Some n).
    { unfold pscript. rewrite fold_left_app. apply Keep; auto.
      - apply (inv_script p (l ++ [c])). auto.
      - apply cmds_app in Hc. destruct Hc as [_ Hc]. rewrite base_fold. exact Hc. }
    congruence. }
  subst n'. exists n. split; auto. unfold uses. rewrite H3.
  destruct (target_kept C p (l ++ [c]) l' k n v Hc Hv') as [_ Iff]. rewrite <- Iff.
  rewrite base_pscript in H5. rewrite H5. tauto.
Qed.

(** ** Measures *)

Record Inv2 (l : list cmd) (s : pst) : Prop := {
  j_inv : Inv s;
  j_hist : forall e i f f2, wraps s e = Some (WEdp i f f2) ->
    exists c m n, In c l /\ measure_name c = Some (m, n) /\ ids s e = Some m /\ ids s i = Some n /\
      kw (wraps s i) = 3 /\ ~ In i (past_of (base s));
  j_grp : forall g e f co d, wraps s g = Some (WGrp e f co d) -> kw (wraps s e) = 4;
  j_str : forall t i, wraps s t = Some (WStr i) -> kd (node_of (graph (base s)) t) = 8;
  j_none : forall t, wraps s t = Some (WStr None) -> groups (graph (base s)) t = [];
  j_some : forall t i, wraps s t = Some (WStr (Some i)) ->
    exists n x, ids s i = Some n /\ kw (wraps s i) = 3 /\ ~ In i (past_of (base s)) /\
      ptr (graph (base s)) (SIm t) = Some x /\ names (base s) TIm n = Some x
}.

Lemma grp_IM : forall l (s : pst) g e f co d, Inv2 l s -> wraps s g = Some (WGrp e f co d) ->
  exists i n c m, get_IM (wraps s) g = Some i /\ ids s i = Some n /\ kw (wraps s i) = 3 /\ ~ In i (past_of (base s)) /\
    In c l /\ measure_name c = Some (m, n) /\ ids s e = Some m.
Proof.
  intros l s g e f co d J Hw. pose proof (j_grp _ _ J _ _ _ _ _ Hw) as K.
  unfold get_IM. rewrite Hw. destruct (wraps s e) as [[| | |i x y| | | |]|] eqn:We; try discriminate.
  destruct (j_hist _ _ J _ _ _ _ We) as (c & m & n & Hc & Hm & He & Hi & Ki & Pi). exists i, n, c, m. auto 10.
Qed.

(** The measure a group says, and the one it has. *)
Lemma grp_measure : forall l (s : pst) g e f co d, Inv2 l s -> steady l -> wraps s g = Some (WGrp e f co d) -> exists_in s g ->
  exists i n x, get_IM (wraps s) g = Some i /\ ids s i = Some n /\ kw (wraps s i) = 3 /\ ~ In i (past_of (base s)) /\
    depends s g x /\ means s TIm n x.
Proof.
  intros l s g e f co d J St Hw Ha. pose proof (j_inv _ _ J) as I.
  destruct (grp_IM _ _ _ _ _ _ _ J Hw) as (i & n & c & m & H1 & H2 & H3 & H4 & H5 & H6 & H7).
  destruct (i_says _ I g _ _ _ _ Hw Ha (says_edp g e f co d)) as (m' & x & A1 & A2 & A3 & _ & A5). cbn in A5.
  rewrite H7 in A1. injection A1 as <-.
  pose proof (i_kind _ I _ _ _ A5) as K. cbn in K.
  pose proof (i_ids _ I _ _ _ A5 ltac:(discriminate)) as Ix.
  destruct (wraps s x) as [[| | |i' y z| | | |]|] eqn:Wx; try discriminate.
  destruct (j_hist _ _ J _ _ _ _ Wx) as (c' & m' & n' & B1 & B2 & B3 & B4 & B5 & B6).
  rewrite Ix in B3. injection B3 as <-. assert (n' = n) by (symmetry; apply (St c c' m n n'); auto). subst n'.
  assert (Ax : exists_in s x).
  { pose proof (g_env _ _ (i_good _ I) _ _ _ A5) as Q. unfold exists_in. destruct (node_of _ x); [discriminate|discriminate Q]. }
  destruct (i_says _ I x _ _ _ _ Wx Ax (says_base x i' y z)) as (n' & u & D1 & _ & D3 & _ & D5). cbn in D5.
  rewrite B4 in D1. injection D1 as <-.
  exists i, n, u. refine (conj H1 (conj H2 (conj H3 (conj H4 (conj _ D5))))). exists x. split; [exact A3|exact D3].
Qed.

Lemma groups_entries : forall (s : @st X V P) t, groups s t = [] <-> entries s t = [].
Proof. intros s t. unfold groups. destruct (entries s t); cbn; split; auto; discriminate. Qed.

Lemma measured_im : forall (s : @sst X V P) g i, measured s g i -> im_of_grp (graph s) g = Some i.
Proof. intros s g i (e & H1 & H2). unfold im_of_grp. now rewrite H1. Qed.

Lemma not_done : forall (s : @st X V P) t g, snd (gstep C s (AddGrp t g)) <> Done ->
  entries (fst (gstep C s (AddGrp t g))) = entries s.
Proof.
  intros s t g. cbn [gstep]. destruct (is_str s t && is_grp s g); [|reflexivity]. unfold do_add.
  destruct (entries s t), (im_of_grp s g); destruct (opt_eqb _ _); cbn; congruence.
Qed.

Lemma added_done : forall (s : @sst X V P) t g ot og, names s TStr t = Some ot -> names s TGrp g = Some og ->
  length (groups (graph (sstep C s (AddTo t g))) ot) <> length (groups (graph s) ot) ->
  snd (gstep C (graph s) (AddGrp ot og)) = Done.
Proof.
  intros s t g ot og Et Eg H. assert (Dc : {snd (gstep C (graph s) (AddGrp ot og)) = Done} + {snd (gstep C (graph s) (AddGrp ot og)) <> Done}).
  { destruct (snd _); (left; reflexivity) || (right; discriminate). }
  destruct Dc as [|N]; auto. exfalso. apply H. unfold groups. rewrite !map_length. f_equal.
  unfold sstep, calls. cbn [graph call defines]. rewrite Et, Eg. cbn [fold_left]. now rewrite not_done.
Qed.

Lemma does_adding : forall (s s' : @sst X V P) t g, does s (AddTo t g) s' ->
  ((names s TStr t = None \/ names s TGrp g = None) /\ same_objects s s') \/
  (exists ot og i, names s TStr t = Some ot /\ names s TGrp g = Some og /\ measured s og i /\
     ((groups (graph s) ot = [] \/ ptr (graph s) (SIm ot) = Some i) /\
      same_names s s' /\ same_nodes s s' /\ groups (graph s') ot = groups (graph s) ot ++ [Some og] /\
      ptr (graph s') (SIm ot) = Some i /\ (forall u, u <> ot -> groups (graph s') u = groups (graph s) u) /\
      (forall sl, owner sl <> ot -> ptr (graph s') sl = ptr (graph s) sl) \/
      groups (graph s) ot <> [] /\ ptr (graph s) (SIm ot) <> Some i /\ same_objects s s')).
Proof.
  intros s s' t g D. inversion D; subst.
  - left. split; auto. cbn in H. destruct H as [H|[H|[]]]; injection H as <- <-; auto.
  - right. exists ot, og, i. repeat (split; [assumption|]). left. repeat (split; [assumption|]). assumption.
  - right. exists ot, og, i. repeat (split; [assumption|]). right. repeat (split; [assumption|]). assumption.
Qed.

Lemma inv2_step : forall l (s : pst) c, Inv2 l s -> careful_cmd (base s) c -> steady (l ++ [c]) -> Inv2 (l ++ [c]) (pstep C s c).
Proof.
  intros l s c J Hc St. pose proof (j_inv _ _ J) as I. pose proof (i_good _ I) as G. pose proof G as [L W E].
  pose proof (inv_step s c I Hc) as I'.
  assert (St0 : steady l) by (intros a b n i i' A B; apply (St a b n i i'); apply in_or_app; auto).
  set (f := fresh (graph (base s))).
  assert (Ht : tidy_cmd (base s) c) by (destruct c; cbn; auto; exact (proj2 Hc)).
  destruct (step_does C _ _ (i_loose _ I) Ht) as [D _].
  assert (Wf : forall o, wraps s o <> None -> o <> f).
  { intros o Q ->. apply Q. apply (i_below _ I). auto. }
  assert (If : forall o n, ids s o = Some n -> o <> f).
  { intros o n Q ->. rewrite (proj1 (i_below _ I f (le_n _))) in Q. discriminate. }
  assert (Kf : forall o j, kw (wraps s o) = S j -> o <> f).
  { intros o j Q. apply Wf. intros Q2. rewrite Q2 in Q. discriminate. }
  assert (Bl : forall o, o <> f -> ids (pstep C s c) o = ids s o) by (intros; apply step_ids; auto).
  assert (Kw : forall o, o <> f -> kw (wraps (pstep C s c) o) = kw (wraps s o)) by (intros; apply step_kw; auto).
  assert (Pf : forall o, o <> f -> ~ In o (past_of (base s)) -> ~ In o (past_of (sstep C (base s) c))).
  { intros o N Q Q2. apply step_past in Q2. destruct Q2 as [Q2|[Q2 _]]; auto. }
  assert (Cs : (exists op k0 n0, call (names (base s)) (graph (base s)) c = Some op /\ defines c = Some (k0, n0)) \/
               (call (names (base s)) (graph (base s)) c = None \/ defines c = None)).
  { destruct (call (names (base s)) (graph (base s)) c) as [op|]; [|auto]. destruct (defines c) as [[k0 n0]|]; [|auto]. eauto 6. }
  assert (Wn : wraps (pstep C s c) f <> None -> exists op k0 n0, call (names (base s)) (graph (base s)) c = Some op /\
     defines c = Some (k0, n0) /\ wraps (pstep C s c) f = made (names (base s)) c /\ kw (made (names (base s)) c) = sk k0).
  { intros Q. destruct Cs as [(op & k0 & n0 & Ec & Ed)|Cs].
    - destruct (step_wraps_new s c op k0 n0 Ec Ed). exists op, k0, n0. auto.
    - destruct (step_idle s c Cs) as [_ Q1]. rewrite Q1 in Q by (apply (i_below _ I); auto). congruence. }
  assert (Str : forall t i, wraps s t = Some (WStr i) -> kd (node_of (graph (sstep C (base s) c)) t) = 8).
  { intros t i Hw. pose proof (j_str _ _ J _ _ Hw) as K. assert (Nt : t <> f) by (apply Wf; congruence).
    unfold sstep, calls. cbn [graph]. destruct (call (names (base s)) (graph (base s)) c) as [op|] eqn:Ec; [|exact K].
    pose proof (careful_past _ _ _ Hc Ec) as Ho. destruct (defines c) as [[k n]|] eqn:Ed.
    - destruct (good_new C _ _ _ _ _ _ G Ec Ed Ho) as (L1 & W1 & E1 & Hq & Hr).
      destruct (new_made C _ _ _ _ _ _ _ L E Ec Ed) as (_ & _ & _ & M4 & _).
      destruct (replaces k) eqn:R; [|cbn [fold_left]; now rewrite M4].
      destruct (names (base s) k n) as [o|] eqn:En; [|cbn [fold_left]; now rewrite M4].
      destruct (Hr o eq_refl eq_refl) as [Cr T]. cbn [fold_left].
      rewrite (other_kinds C (past_of (base s))); auto; [now rewrite M4|discriminate].
    - cbn [fold_left]. destruct (call_shape _ _ _ Ec Ed) as (N1 & _).
      rewrite (other_kinds C (past_of (base s))); auto. intros ->. cbn in Ho.
      apply kd_is in K. congruence. }
  assert (Alive : forall t i, wraps s t = Some (WStr i) -> node_of (graph (sstep C (base s) c)) t <> None).
  { intros t i Hw Q. apply Str in Hw. rewrite Q in Hw. discriminate. }
  assert (Grp : forall n og, names (base s) TGrp n = Some og -> exists e fr co d, wraps s og = Some (WGrp e fr co d) /\ exists_in s og).
  { intros n og Q. pose proof (i_kind _ I _ _ _ Q) as K. cbn in K.
    destruct (wraps s og) as [[| | | | | |e fr co d|]|] eqn:Wg; try discriminate. exists e, fr, co, d. split; auto.
    apply E in Q. unfold exists_in. destruct (node_of _ og); [discriminate|discriminate Q]. }
  constructor; rewrite ?step_sst.
  - exact I'.
  - intros e i g g2 Hw. destruct (Nat.eq_dec e f) as [->|N].
    + destruct (Wn ltac:(congruence)) as (op & k0 & n0 & Ec & Ed & Q1 & Q2). rewrite Q1 in Hw.
      assert (Hx : exists n m, measure_name c = Some (m, n) /\ defines c = Some (TEdp, m) /\ names (base s) TIm n = Some i /\ ~ In i (past_of (base s))).
      { pose proof (careful_past _ _ _ Hc Ec) as Ho.
        destruct c; cbn in Hw, Ec |- *; try discriminate;
          repeat match type of Hw with match ?x with _ => _ end = _ => destruct x eqn:?; try discriminate end;
          injection Hw as <- <- <-; eexists; eexists; (split; [reflexivity|split; [reflexivity|split; [eassumption|]]]).
        - injection Ec as <-. cbn in Ho. tauto.
        - repeat match type of Ec with match ?x with _ => _ end = _ => destruct x; try discriminate end.
          injection Ec as <-. cbn in Ho. tauto. }
      destruct Hx as (n & m & X1 & X2 & X3 & X4).
      pose proof (names_below _ _ _ _ G X3) as Lt. fold f in Lt.
      exists c, m, n. split; [apply in_or_app; cbn; auto|]. split; [exact X1|].
      split; [eapply step_ids_new; eauto; discriminate|].
      rewrite Bl, Kw by lia. split; [eapply (i_ids _ I); eauto; discriminate|].
      split; [eapply (i_kind _ I _ _ _ X3)|]. apply Pf; auto. lia.
    + destruct (step_wraps s c e N) as [Q|(t & g' & ot & og & _ & _ & _ & _ & -> & _ & Q)]; rewrite Q in Hw; [|discriminate].
      destruct (j_hist _ _ J _ _ _ _ Hw) as (c' & m & n & H1 & H2 & H3 & H4 & H5 & H6).
      exists c', m, n. split; [apply in_or_app; auto|]. split; auto. rewrite !Bl, Kw by eauto. exact (conj H3 (conj H4 (conj H5 (Pf _ (If _ _ H4) H6)))).
  - intros g e fr co d Hw. destruct (Nat.eq_dec g f) as [->|N].
    + destruct (Wn ltac:(congruence)) as (op & k0 & n0 & Ec & Ed & Q1 & Q2). rewrite Q1 in Hw.
      destruct c; cbn in Hw; try discriminate;
        repeat match type of Hw with match ?x with _ => _ end = _ => destruct x eqn:?; try discriminate end.
      injection Hw as <- <- <- <-.
      match goal with H : names (base s) TEdp ?a = Some ?b |- _ =>
        pose proof (names_below _ _ _ _ G H) as Lt; rewrite Kw by (unfold f; lia); apply (i_kind _ I _ _ _ H) end.
    + destruct (step_wraps s c g N) as [Q|(t & g' & ot & og & _ & _ & _ & _ & -> & _ & Q)]; rewrite Q in Hw; [|discriminate].
      pose proof (j_grp _ _ J _ _ _ _ _ Hw) as K. rewrite Kw; [exact K|exact (Kf _ _ K)].
  - intros t i Hw. destruct (Nat.eq_dec t f) as [->|N].
    + destruct (Wn ltac:(congruence)) as (op & k0 & n0 & Ec & Ed & Q1 & Q2). rewrite <- Q1, Hw in Q2.
      assert (k0 = TStr) by (destruct k0; try discriminate; auto). subst k0.
      change 8 with (sk TStr). apply (g_env _ _ (i_good _ I') TStr n0). cbn [base pstep].
      rewrite step_names, Ec, Ed, sort_eqb_refl, Nat.eqb_refl. reflexivity.
    + destruct (step_wraps s c t N) as [Q|(t' & g' & ot & og & _ & _ & _ & _ & -> & Q0 & Q)]; [rewrite Q in Hw|]; eauto.
  - (* a structure without a measure is empty *)
    intros t Hw. destruct (Nat.eq_dec t f) as [->|N].
    + destruct (Wn ltac:(congruence)) as (op & k0 & n0 & Ec & Ed & Q1 & Q2). rewrite <- Q1, Hw in Q2.
      assert (k0 = TStr) by (destruct k0; try discriminate; auto). subst k0.
      assert (En : names (sstep C (base s) c) TStr n0 = Some f).
      { rewrite step_names, Ec, Ed, sort_eqb_refl, Nat.eqb_refl. reflexivity. }
      apply groups_entries. clear Q1. rewrite <- (defines_heard (base s) c) in Ed.
      generalize dependent (heard (base s) c). intros ch D Ed.
      inversion D; subst; cbn in Ed; try discriminate; try (destruct H as (_ & H)).
      * exfalso. destruct H1 as (Q & _). rewrite Q in En. eapply names_below in En; eauto. unfold f in En. lia.
      * injection Ed as ->. destruct H as (o & _ & _ & _ & Q3 & _ & _ & _ & _ & _ & Q4 & _). rewrite En in Q3. injection Q3 as <-. exact Q4.
    + destruct (step_wraps s c t N) as [Q|(t' & g' & ot & og & -> & Et & Eg & Ed & -> & Q0 & Q)].
      2:{ destruct (Grp _ _ Eg) as (e & fr & co & d & Wg & _).
          destruct (grp_IM _ _ _ _ _ _ _ J Wg) as (i & n & c & m & H1 & _).
          rewrite Q, H1 in Hw. discriminate. }
      rewrite Q in Hw. pose proof (j_none _ _ J _ Hw) as Em.
      assert (Dh : heard (base s) c = c \/ exists n a e f x, heard (base s) c = DefGrp n a e f x None).
      { destruct c; auto. destruct d as [d|]; auto. cbn. destruct (names (base s) TLoss d); eauto 8. }
      destruct Dh as [Dh|(n1 & a1 & e1 & f1 & x1 & Dh)]; rewrite Dh in D.
      2:{ inversion D; subst.
          all: try (match goal with H : makes _ _ _ _ _ _ |- _ => destruct H as (o & _ & _ & _ & _ & _ & _ & _ & _ & _ & _ & Qe) end;
            apply groups_entries; rewrite Qe; apply groups_entries; exact Em).
          all: match goal with H : same_objects _ _ |- _ => destruct H as (_ & _ & _ & Qe) end; rewrite Qe; exact Em. }
      clear Dh. inversion D; subst;
        try (match goal with H : makes _ _ _ _ _ _ |- _ => destruct H as (o & _ & _ & _ & _ & _ & _ & _ & _ & _ & _ & Qe) end;
             apply groups_entries; rewrite Qe; apply groups_entries; exact Em);
        try (match goal with H : same_objects _ _ |- _ => destruct H as (_ & _ & _ & Qe) end; rewrite Qe; exact Em);
        try (match goal with H : alters _ _ _ _ _ |- _ => destruct H as (_ & _ & Qe & _) end; rewrite Qe; exact Em).
      * (* does_add *)
        destruct (Nat.eq_dec t ot) as [->|Nt]; [|rewrite H7 by auto; exact Em].
        exfalso. rename H into Et, H0 into Eg, H1 into Hm.
        assert (Dn : snd (gstep C (graph (base s)) (AddGrp ot og)) = Done).
        { apply (added_done _ _ _ _ _ Et Eg). rewrite H5, app_length. cbn. lia. }
        unfold pstep in Q. cbn [wraps call] in Q. rewrite Et, Eg, Dn, Hw, upd_same in Q.
        destruct (Grp _ _ Eg) as (e & fr & co & d & Wg & _).
        destruct (grp_IM _ _ _ _ _ _ _ J Wg) as (i' & n & c & m & Q5 & _). rewrite Q5 in Q. discriminate.
      * destruct (Nat.eq_dec t ot) as [->|Nt]; [|rewrite H5 by auto; exact Em].
        rewrite Em in H4. inversion H4; auto.
      * destruct (Nat.eq_dec t o) as [->|Nt]; [|rewrite H4 by auto; exact Em]. exfalso. eapply Alive; eauto.
  - (* a structure with a measure *)
    intros t i Hw. destruct (Nat.eq_dec t f) as [->|N].
    { exfalso. destruct (Wn ltac:(congruence)) as (op & k0 & n0 & Ec & Ed & Q1 & Q2). rewrite Q1 in Hw.
      destruct c; cbn in Hw; try discriminate;
        repeat match type of Hw with match ?x with _ => _ end = _ => destruct x eqn:?; try discriminate end. }
    destruct (step_wraps s c t N) as [Q|(nt & ng & ot & og & -> & Et & Eg & Ed & -> & Q0 & Q)].
    + rewrite Q in Hw. destruct (j_some _ _ J _ _ Hw) as (n & x & H1 & H2 & H3 & H4 & H5).
      exists n, (rewire (base s) c x). rewrite Bl, Kw by eauto.
      split; [exact H1|]. split; [exact H2|]. split; [apply Pf; eauto|].
      split; [|apply step_name; auto].
      assert (Ca : (exists nt ng, c = AddTo nt ng) \/ forall nt ng, c <> AddTo nt ng).
      { destruct c; try (right; discriminate). left. eauto. }
      destruct Ca as [(nt & ng & ->)|Ca].
      2:{ apply step_ptr; auto. cbn [owner]. eapply Alive; eauto. }
      assert (Rw : rewire (base s) (AddTo nt ng) x = x) by (unfold rewire; cbn [defines]; destruct (call _ _ _); auto).
      rewrite Rw. destruct (does_adding _ _ _ _ D) as [[_ (_ & _ & Qe & _)]|(ot & og & m & A1 & A2 & A3 & [(A4 & A5 & A6 & A7 & A8 & A9 & A10)|(_ & _ & (_ & _ & Qe & _))])].
      * rewrite Qe. exact H4.
      * destruct (Nat.eq_dec t ot) as [->|Nt]; [|rewrite A10 by auto; exact H4].
        rewrite A8. f_equal. apply measured_im in A3. destruct A4 as [Hg|Hg]; [|congruence].
        destruct Hc as [Hc _]. cbn [call] in Hc. rewrite A1, A2 in Hc. cbn in Hc.
        destruct Hc as [_ Hc]. destruct (Hc (proj1 (groups_entries _ _) Hg)) as [[Hz|Hz] _]; congruence.
      * rewrite Qe. exact H4.
    + rewrite Q in Hw. injection Hw as Hw. pose proof (j_none _ _ J _ Q0) as Em.
      destruct (Grp _ _ Eg) as (e & fr & co & d & Wg & Ag).
      destruct (grp_measure _ _ _ _ _ _ _ J St0 Wg Ag) as (i' & n & x & H1 & H2 & H3 & H4 & (y & H5 & H5') & H6).
      rewrite H1 in Hw. injection Hw as ->. exists n, x. rewrite Bl, Kw by eauto.
      split; [exact H2|]. split; [exact H3|]. split; [apply Pf; eauto|].
      destruct (does_adding _ _ _ _ D) as [[[A|A] _]|(ot' & og' & m & A1 & A2 & (y' & Y1 & Y2) & [(A4 & A5 & A6 & A7 & A8 & A9 & A10)|(A & _)])];
        try congruence.
      rewrite Et in A1. injection A1 as <-. rewrite Eg in A2. injection A2 as <-.
      unfold uses in H5, H5'. rewrite H5 in Y1. injection Y1 as <-. rewrite H5' in Y2. injection Y2 as <-.
      split; [exact A8|]. rewrite A5. exact H6.
Qed.

Lemma inv2_start : forall p, Inv2 [] (PS (SS (st0 p) (fun _ _ => None) []) (fun _ => None) (fun _ => None)).
Proof. intros p. constructor; cbn; try discriminate. apply inv_start. Qed.

Lemma pscript_snoc : forall p l c, pscript C p (l ++ [c]) = pstep C (pscript C p l) c.
Proof. intros. unfold pscript. now rewrite fold_left_app. Qed.

Lemma inv2_script : forall p l, careful_script C p l -> steady l -> Inv2 l (pscript C p l).
Proof.
  intros p l. induction l as [|c l IH] using rev_ind; intros Hc St; [apply inv2_start|].
  rewrite pscript_snoc. apply inv2_step; auto.
  - apply IH; [eapply careful_app; eauto|]. intros a b n i i' A B. apply (St a b n i i'); apply in_or_app; auto.
  - rewrite base_pscript. apply cmds_app in Hc. destruct Hc as [_ [H _]]. exact H.
Qed.

(** The measures groups and structures say are those they depend on. *)
Lemma demand_measure : forall p l n o, careful_script C p l ->
  let s := pscript C p l in means s TEdp n o ->
  exists i m x, get_IM (wraps s) o = Some i /\ ids s i = Some m /\ means s TIm m x /\ uses s (SBase o) x.
Proof.
  intros p l n o Hc s Hn. pose proof (inv_script p l Hc) as I. fold s in I.
  pose proof (i_kind _ I _ _ _ Hn) as K. cbn in K.
  destruct (wraps s o) as [[| | |i f g| | | |]|] eqn:Wg; try discriminate.
  assert (Ag : exists_in s o).
  { apply (g_env _ _ (i_good _ I)) in Hn. unfold exists_in. destruct (node_of _ o); [discriminate|discriminate Hn]. }
  destruct (names_true p l o _ _ _ _ Hc Wg Ag (says_base o i f g)) as (m & H1 & x & H2 & H3).
  exists i, m, x. unfold get_IM. rewrite Wg. auto.
Qed.

Lemma group_measure : forall p l n o, careful_script C p l -> steady l ->
  let s := pscript C p l in means s TGrp n o ->
  exists i m x, get_IM (wraps s) o = Some i /\ ids s i = Some m /\ means s TIm m x /\ depends s o x.
Proof.
  intros p l n o Hc St s Hn. pose proof (inv2_script p l Hc St) as J. pose proof (j_inv _ _ J) as I. fold s in J, I.
  pose proof (i_kind _ I _ _ _ Hn) as K. cbn in K.
  destruct (wraps s o) as [[| | | | | |e fr co d|]|] eqn:Wg; try discriminate.
  assert (Ag : exists_in s o).
  { apply (g_env _ _ (i_good _ I)) in Hn. unfold exists_in. destruct (node_of _ o); [discriminate|discriminate Hn]. }
  destruct (grp_measure _ _ _ _ _ _ _ J St Wg Ag) as (i & m & x & H1 & H2 & _ & _ & H5 & H6). eauto 8.
Qed.

Lemma structure_measure : forall p l n o, careful_script C p l -> steady l ->
  let s := pscript C p l in means s TStr n o -> groups (graph (base s)) o <> [] ->
  exists i m x, get_IM (wraps s) o = Some i /\ ids s i = Some m /\ means s TIm m x /\ uses s (SIm o) x.
Proof.
  intros p l n o Hc St s Hn Hg. pose proof (inv2_script p l Hc St) as J. pose proof (j_inv _ _ J) as I. fold s in J, I.
  pose proof (i_kind _ I _ _ _ Hn) as K. cbn in K.
  destruct (wraps s o) as [[| | | | | | |[i|]]|] eqn:Wg; try discriminate.
  - destruct (j_some _ _ J _ _ Wg) as (m & x & H1 & _ & _ & H4 & H5). exists i, m, x. unfold get_IM. rewrite Wg. auto.
  - exfalso. apply Hg. apply (j_none _ _ J). exact Wg.
Qed.

Lemma rejected : forall (s : @sst X V P) ot og i, Env (graph s) (names s) -> kd (node_of (graph s) ot) = 8 -> kd (node_of (graph s) og) = 7 ->
  measured s og i -> groups (graph s) ot <> [] -> ptr (graph s) (SIm ot) <> Some i ->
  snd (gstep C (graph s) (AddGrp ot og)) = Thrown.
Proof.
  intros s ot og i E K1 K2 M Hg Hp. apply kd_is in K1. apply kd_is in K2. cbn [gstep]. rewrite K1, K2. cbn [andb].
  unfold do_add. destruct (entries (graph s) ot) eqn:En; [exfalso; apply Hg; apply groups_entries; exact En|].
  rewrite (measured_im _ _ _ M). unfold opt_eqb.
  destruct (ptr (graph s) (SIm ot)) as [x|]; [|reflexivity].
  destruct (Nat.eqb_spec i x); [congruence|reflexivity].
Qed.

Lemma unknown : forall p l t g, let s := pscript C p l in let s' := pscript C p (l ++ [AddTo t g]) in
  (forall o, ~ means s TStr t o) \/ (forall o, ~ means s TGrp g o) ->
  add_answer C s t g = ARaise /\ unchanged s s'.
Proof.
  intros p l t g s s' H. unfold s' in *. rewrite pscript_snoc. fold s. unfold means in H.
  assert (Ec : call (names (base s)) (graph (base s)) (AddTo t g) = None).
  { cbn. destruct (names (base s) TStr t); auto. destruct (names (base s) TGrp g); auto. exfalso. destruct H as [H|H]; eapply H; eauto. }
  split.
  - unfold add_answer. destruct (names (base s) TStr t); auto. destruct (names (base s) TGrp g); auto.
    exfalso. destruct H as [H|H]; eapply H; eauto.
  - unfold unchanged, pstep. cbn [base wraps ids defines]. rewrite Ec. split; [|auto].
    unfold sstep, calls. rewrite Ec. repeat split; auto.
Qed.

Lemma additions : forall p l t g ot og, careful_script C p (l ++ [AddTo t g]) -> steady l ->
  let s := pscript C p l in let s' := pscript C p (l ++ [AddTo t g]) in
  means s TStr t ot -> means s TGrp g og ->
  exists i, depends s og i /\
    ((groups (graph (base s)) ot = [] \/ uses s (SIm ot) i) /\ add_answer C s t g = AOk /\ added_to s s' ot og i \/
     (groups (graph (base s)) ot <> [] /\ ~ uses s (SIm ot) i) /\ add_answer C s t g = AEnd /\ unchanged s s').
Proof.
  intros p l t g ot og Hc St s s' Ht Hg.
  assert (Hc0 : careful_script C p l) by (eapply careful_app; eauto).
  assert (Hcc : careful_cmd (base s) (AddTo t g)).
  { unfold s. rewrite base_pscript. apply cmds_app in Hc. destruct Hc as [_ [H _]]. exact H. }
  assert (Es : s' = pstep C s (AddTo t g)) by (unfold s, s'; apply pscript_snoc).
  pose proof (inv2_script p l Hc0 St) as J. fold s in J. pose proof (j_inv _ _ J) as I. pose proof (i_good _ I) as G.
  unfold means in Ht, Hg.
  pose proof (g_env _ _ G _ _ _ Ht) as Kt. pose proof (g_env _ _ G _ _ _ Hg) as Kg. cbn in Kt, Kg.
  destruct (step_does C _ (AddTo t g) (i_loose _ I) Logic.I) as [D _].
  pose proof (i_kind _ I _ _ _ Hg) as K. cbn in K.
  destruct (wraps s og) as [[| | | | | |e fr co d|]|] eqn:Wg; try discriminate.
  assert (Ag : exists_in s og) by (unfold exists_in; destruct (node_of _ og); [discriminate|discriminate Kg]).
  destruct (grp_measure _ _ _ _ _ _ _ J St Wg Ag) as (i & n & x & H1 & H2 & H3 & H4 & H5 & H6).
  exists x. split; auto. destruct H5 as (y & U1 & U2).
  destruct (does_adding _ _ _ _ D) as [[[A|A] _]|(ot' & og' & m & A1 & A2 & M & A)]; try congruence.
  rewrite Ht in A1. injection A1 as <-. rewrite Hg in A2. injection A2 as <-.
  assert (m = x).
  { destruct M as (y' & Y1 & Y2). unfold uses in U1, U2. rewrite U1 in Y1. injection Y1 as <-. congruence. }
  subst m. destruct A as [(A4 & A5 & A6 & A7 & A8 & A9 & A10)|(A4 & A5 & A6)].
  - left. split; [exact A4|]. split.
    2:{ rewrite Es. unfold added_to. rewrite step_sst. refine (conj A7 (conj A8 (conj A9 (conj A5 A6)))). }
    assert (Dn : snd (gstep C (graph (base s)) (AddGrp ot og)) = Done).
    { apply (added_done _ _ _ _ _ Ht Hg). rewrite A7, app_length. cbn. lia. }
    unfold add_answer. rewrite Ht, Hg, Dn. unfold im_agrees.
    pose proof (i_kind _ I _ _ _ Ht) as K2. cbn in K2.
    destruct (wraps s ot) as [[| | | | | | |[i0|]]|] eqn:Wt; try discriminate; auto.
    destruct (j_some _ _ J _ _ Wt) as (n0 & x0 & B1 & B2 & B3 & B4 & B5).
    assert (x0 = x).
    { destruct A4 as [Em|Em]; [|congruence]. destruct Hcc as [Hcc _]. cbn [call] in Hcc. rewrite Ht, Hg in Hcc. cbn in Hcc.
      destruct Hcc as [_ Hcc]. apply measured_im in M.
      destruct (Hcc (proj1 (groups_entries _ _) Em)) as [[Hz|Hz] _]; congruence. }
    subst x0. unfold means in H6.
    assert (n0 = n).
    { pose proof (i_ids _ I _ _ _ B5 ltac:(discriminate)) as Q1. pose proof (i_ids _ I _ _ _ H6 ltac:(discriminate)) as Q2. congruence. }
    subst n0. assert (i0 = i) by (apply (i_once _ I TIm); auto; congruence). subst i0.
    rewrite H1. cbn. rewrite Nat.eqb_refl. reflexivity.
  - right. split; [auto|].
    pose proof (rejected (base s) ot og x (g_env _ _ G) Kt Kg M A4 A5) as Th.
    split; [unfold add_answer; rewrite Ht, Hg, Th; reflexivity|].
    rewrite Es. split; [exact A6|]. unfold pstep. cbn [wraps ids call defines]. rewrite Ht, Hg, Th. auto.
Qed.

End Proofs.

(** ** Scripts that go wrong *)

Definition start : list (@cmd nat nat) :=
  [DefDet 0 1; DefDet 1 2; DefProb 0 0 1 1; DefIm 0 0; DefIm 1 1; DefEdp 0 0 0; DefFrag 0 5; DefLoss 0 6;
   DefGrp 0 1 0 0 (Some 0) None].

(** The fragility function of a group is defined again. *)
Lemma refute_fragfn : exists (l : list (@cmd nat nat)) n g f a b,
  careful_script adding 0 l /\ means (pscript adding 0 l) TGrp n g /\ uses (pscript adding 0 l) (SFrag g) f /\
  node_of (graph (base (pscript adding 0 l))) f = Some (NFrag a) /\
  ds_shown (pscript adding 0 l) g = Some b /\ a <> b.
Proof.
  exists (start ++ [DefFrag 0 7]), 0, 8, 9, 7, 5. split; [apply scriptb_ok; vm_compute; reflexivity|].
  repeat (split; [vm_compute; reflexivity|]). discriminate.
Qed.

(** The demand parameter of a group is defined again, on another measure. *)
Lemma refute_getIM : exists (l : list (@cmd nat nat)) n g i m x,
  careful_script adding 0 l /\ means (pscript adding 0 l) TGrp n g /\
  get_IM (wraps (pscript adding 0 l)) g = Some i /\ ids (pscript adding 0 l) i = Some m /\
  depends (pscript adding 0 l) g x /\ ~ means (pscript adding 0 l) TIm m x.
Proof.
  exists (start ++ [DefEdp 0 1 0]), 0, 8, 3, 0, 4. split; [apply scriptb_ok; vm_compute; reflexivity|].
  repeat (split; [vm_compute; reflexivity|]). split.
  - exists 9. split; vm_compute; reflexivity.
  - vm_compute. discriminate.
Qed.

(** A function a measure uses is defined again. *)
Lemma refute_function : exists (l : list (@cmd nat nat)) n o f m x,
  careful_script adding 0 l /\ means (pscript adding 0 l) TIm n o /\
  wraps (pscript adding 0 l) o = Some (WIm f) /\ ids (pscript adding 0 l) f = Some m /\
  uses (pscript adding 0 l) (SF o) x /\ ~ means (pscript adding 0 l) TDet m x.
Proof.
  exists (start ++ [DefDet 0 7]), 0, 3, 0, 0, 0. split; [apply scriptb_ok; vm_compute; reflexivity|].
  repeat (split; [vm_compute; reflexivity|]). vm_compute. discriminate.
Qed.

(** An addition to a structure that Python objects to although the group depends
    on its measure, and although the group has been added. *)
Definition objects (p : nat) (l : list (@cmd nat nat)) (t g : nat) : Prop :=
  exists ot og i, means (pscript adding p l) TStr t ot /\ means (pscript adding p l) TGrp g og /\
    depends (pscript adding p l) og i /\ 
    (groups (graph (base (pscript adding p l))) ot = [] \/ uses (pscript adding p l) (SIm ot) i) /\
    add_answer adding (pscript adding p l) t g = ARaise /\
    groups (graph (base (pscript adding p (l ++ [AddTo t g])))) ot =
      groups (graph (base (pscript adding p l))) ot ++ [Some og].

Lemma refute_moved : exists l t g, careful_script adding 0 (l ++ [AddTo t g]) /\ objects 0 l t g.
Proof.
  exists (start ++ [DefEdp 0 1 0; DefEdp 1 1 0; DefGrp 1 1 1 0 (Some 0) None; DefStr 0; AddTo 0 0]), 0, 1.
  split; [apply scriptb_ok; vm_compute; reflexivity|]. exists 12, 11, 4.
  split; [vm_compute; reflexivity|]. split; [vm_compute; reflexivity|]. split; [exists 10; split; vm_compute; reflexivity|].
  split; [right; vm_compute; reflexivity|]. split; vm_compute; reflexivity.
Qed.

(** The measure is defined again, and a demand parameter on it follows. *)
Lemma refute_renewed : exists l t g, steady l /\ objects 0 l t g.
Proof.
  exists (start ++ [DefStr 0; AddTo 0 0; DefIm 0 1; DefEdp 1 0 0; DefGrp 1 1 1 0 (Some 0) None]), 0, 1.
  split.
  { intros c c' n i i' H H'. cbn in H, H'.
    repeat (destruct H as [<-|H]; [repeat (destruct H' as [<-|H']; [cbn; try discriminate; intros E1 E2; injection E1; injection E2; intros; congruence|]); destruct H'|]).
    destruct H. }
  exists 9, 13, 11.
  split; [vm_compute; reflexivity|]. split; [vm_compute; reflexivity|]. split; [exists 12; split; vm_compute; reflexivity|].
  split; [right; vm_compute; reflexivity|]. split; vm_compute; reflexivity.
Qed.

Lemma refute_refill : exists l t g, tidy_script adding 0 (l ++ [AddTo t g]) /\ steady l /\ objects 0 l t g.
Proof.
  exists (start ++ [DefEdp 1 1 0; DefGrp 1 1 1 0 (Some 0) None; DefStr 0; AddTo 0 0; RemoveFrom 0 0]), 0, 1.
  split; [cbn; tauto|]. split.
  { intros c c' n i i' H H'. cbn in H, H'.
    repeat (destruct H as [<-|H]; [repeat (destruct H' as [<-|H']; [cbn; try discriminate; intros E1 E2; injection E1; injection E2; intros; congruence|]); destruct H'|]).
    destruct H. }
  exists 11, 10, 4.
  split; [vm_compute; reflexivity|]. split; [vm_compute; reflexivity|]. split; [exists 9; split; vm_compute; reflexivity|].
  split; [left; vm_compute; reflexivity|]. split; vm_compute; reflexivity.
Qed.
