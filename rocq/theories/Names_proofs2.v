(** What a structure leads to has a name. *)
Require Import List Arith Bool Lia.
From Verif Require Import Replaceable Replaceable_proofs Graph Graph_spec Script Script_spec.
From Verif Require Import Graph_proofs Graph_proofs2 Graph_proofs3 Graph_proofs4 Graph_proofs5.
From Verif Require Import Graph_proofs6 Graph_proofs7 Graph_claims_proofs Script_proofs Script_proofs2.
From Verif Require Import Target Target_spec Target_proofs Wrapper Wrapper_spec Wrapper_proofs.
Import ListNotations.

Section Proofs.

Context {X V P : Type}.
Variable C : calcs X V P.
Notation pst := (@pst X V P).
Notation cmd := (@cmd X P).

(** Whatever of the replaceable sorts something points to has a name. *)
Definition Named (s : @sst X V P) : Prop :=
  forall sl x k, ptr (graph s) sl = Some x -> tk sl = sk k -> replaces k = true -> exists n, names s k n = Some x.

Lemma ptr_register : forall sl o (s : @Graph.st X V P) sl' x, ptr (register sl o s) sl' = Some x ->
  x = o \/ ptr s sl' = Some x.
Proof.
  intros sl o s sl' x. unfold register. destruct (add_callbacks sl (rep s o)) as [r id]. cbn. unfold upd_slot.
  destruct (slot_eqb sl' sl); [|auto]. intros E. injection E as <-. auto.
Qed.

Lemma new_ptr : forall (s : @sst X V P) c op k0 n0 sl x,
  call (names s) (graph s) c = Some op -> defines c = Some (k0, n0) ->
  ptr (fst (gstep C (graph s) op)) sl = Some x -> (exists sl, ptr (graph s) sl = Some x) \/ exists k n, names s k n = Some x.
Proof.
  intros s c op k0 n0 sl x Ec Ed Hp.
  assert (Hm : forall c l, maybe (names s) TLoss c = Some l -> exists k n, names s k n = Some l).
  { intros [c'|] l Q; cbn in Q; [eauto|discriminate]. }
  destruct c; cbn in Ed; try discriminate; clear Ed; cbn [call] in Ec;
    repeat match type of Ec with match ?x with _ => _ end = _ => destruct x eqn:?; try discriminate end;
    injection Ec as <-; cbn [gstep] in Hp;
    repeat match type of Hp with context [if ?b then _ else _] => destruct b; cbn [fst] in Hp; auto end;
    repeat match type of Hp with context [match ?b with Some _ => _ | None => _ end] => destruct b eqn:?; cbn [fst] in Hp end;
    repeat (cbn [fst] in Hp; apply ptr_register in Hp; destruct Hp as [Hp|Hp]; [subst; eauto; fail|]); eauto.

Qed.

Lemma ptr_add : forall (s : @sst X V P) t g sl x, ptr (fst (gstep C (graph s) (AddGrp t g))) sl = Some x ->
  ptr (graph s) sl = Some x \/ x = g \/ (exists e, ptr (graph s) (SEdp g) = Some e /\ ptr (graph s) (SBase e) = Some x).
Proof.
  intros s t g sl x. cbn [gstep]. destruct (_ && _); [|cbn; auto]. unfold do_add.
  set (s1 := match entries (graph s) t, im_of_grp (graph s) g with [], Some i => register (SIm t) i (graph s) | _, _ => graph s end).
  assert (H1 : forall sl x, ptr s1 sl = Some x -> ptr (graph s) sl = Some x \/
     (exists e, ptr (graph s) (SEdp g) = Some e /\ ptr (graph s) (SBase e) = Some x)).
  { intros sl' x' H. unfold s1 in H. destruct (entries (graph s) t); auto. unfold im_of_grp in H.
    destruct (ptr (graph s) (SEdp g)) as [e|] eqn:Ee; auto.
    destruct (ptr (graph s) (SBase e)) as [i|] eqn:Ei; auto.
    apply ptr_register in H. destruct H as [->|]; eauto. }
  destruct (opt_eqb _ _); cbn [fst].
  - intros H. cbn [ptr wipe set_cache set_entries] in H. apply ptr_register in H. destruct H as [->|H]; auto.
    cbn [ptr set_fresh] in H. apply H1 in H. tauto.
  - intros H. apply H1 in H. tauto.
Qed.

Lemma named_step : forall (s : pst) c, Inv s -> careful_cmd (base s) c -> Named (base s) -> Named (base (pstep C s c)).
Proof.
  intros s c I Hc N sl x k Hp Ht R. change (base (pstep C s c)) with (sstep C (base s) c) in *.
  pose proof (i_good _ I) as G. pose proof G as [L W E].
  assert (G' : Good (past_of (sstep C (base s) c)) (sstep C (base s) c)) by (apply good_step; auto).
  destruct (l_typed _ _ (g_lnk _ _ G') _ _ Hp) as [T1 T2].
  assert (Ho : node_of (graph (sstep C (base s) c)) (owner sl) <> None).
  { intros Q. rewrite Q in T2. destruct sl; discriminate. }
  assert (Keep : forall n y, names (base s) k n = Some y -> exists n', names (sstep C (base s) c) k n' = Some (rewire (base s) c y)).
  { intros n y Q. exists n. eapply step_name; eauto. }
  assert (Dec : (forall t g, c <> AddTo t g) \/ exists t g, c = AddTo t g) by (destruct c; eauto; left; discriminate).
  destruct Dec as [Dec|(t & g & ->)].
  2:{ (* a group is added *)
    assert (En : forall k n, names (sstep C (base s) (AddTo t g)) k n = names (base s) k n).
    { intros. rewrite step_names. cbn. destruct (names (base s) TStr t); auto. destruct (names (base s) TGrp g); auto. }
    assert (K : forall k' n, names (base s) k' n = Some x -> exists n, names (sstep C (base s) (AddTo t g)) k n = Some x).
    { intros k' n Q. rewrite <- En in Q. pose proof (g_env _ _ G' _ _ _ Q) as Q2. rewrite T1, Ht in Q2. apply sk_inj in Q2. subst k'. eauto. }
    enough (exists k' n, names (base s) k' n = Some x) as (k' & n & Q) by eauto. clear K En.
    revert Hp. unfold sstep, calls. cbn [graph call]. destruct (names (base s) TStr t) as [ot|] eqn:Et.
    2:{ intros Hp. destruct (N _ _ _ Hp Ht R) as [n Hn]. eauto. }
    destruct (names (base s) TGrp g) as [og|] eqn:Eg.
    2:{ intros Hp. destruct (N _ _ _ Hp Ht R) as [n Hn]. eauto. }
    cbn [defines fold_left]. intros Hp. apply ptr_add in Hp. destruct Hp as [Hp|[->|(e & He & Hp)]].
    - destruct (N _ _ _ Hp Ht R) as [n Hn]. eauto.
    - eauto.
    - destruct (N _ _ TIm Hp eq_refl eq_refl) as [n Hn]. eauto. }
  destruct (call (names (base s)) (graph (base s)) c) as [op|] eqn:Ec.
  2:{ destruct (N sl x k) as [n Hn]; auto; [revert Hp; unfold sstep, calls; cbn [graph]; rewrite Ec; auto|].
      exists n. rewrite step_names, Ec. exact Hn. }
  pose proof (careful_past _ _ _ Hc Ec) as Cp.
  destruct (defines c) as [[k0 n0]|] eqn:Ed.
  - (* a definition *)
    destruct (good_new C _ _ _ _ _ _ G Ec Ed Cp) as (L1 & W1 & E1 & Hq & Hr).
    assert (H1 : exists y, ptr (fst (gstep C (graph (base s)) op)) sl = Some y /\ x = rewire (base s) c y).
    { revert Hp. unfold sstep, calls, rewire. cbn [graph]. rewrite Ec, Ed. destruct (replaces k0) eqn:R0; [|cbn [fold_left]; eauto].
      destruct (names (base s) k0 n0) as [o|] eqn:En; [|cbn [fold_left]; eauto].
      destruct (Hr o eq_refl eq_refl) as [(N' & Hu & H22) T]. cbn [fold_left].
      destruct (lnk_replace _ _ _ _ L1 (same_type_kd _ _ _ T) N' Hu H22) as (_ & _ & _ & _ & _ & _ & _ & Hy & _).
      cbn [gstep]. rewrite T. cbn [fst]. rewrite Hy. destruct (ptr _ sl) as [y|]; [|discriminate].
      intros Q. exists y. split; auto. destruct (y =? o); congruence. }
    destruct H1 as (y & H1 & ->). destruct (l_typed _ _ L1 _ _ H1) as [T3 _].
    destruct (new_made C _ _ _ _ _ _ _ L E Ec Ed) as (_ & _ & _ & M4 & _).
    destruct (new_ptr _ _ _ _ _ _ _ Ec Ed H1) as [[sl' Q]|(k' & n & Q)].
    + destruct (l_typed _ _ L _ _ Q) as [T4 _]. rewrite M4 in T3 by (apply (ptr_alive _ _ _ _ L) in Q; lia).
      destruct (N sl' y k Q) as [n Hn]; [congruence|auto|]. eauto.
    + pose proof (E _ _ _ Q) as T4. rewrite M4 in T3 by (eapply names_below in Q; eauto; lia).
      assert (k' = k) by (apply sk_inj; congruence). subst k'. eauto.
  - (* anything else *)
    assert (Hg : ptr (fst (gstep C (graph (base s)) op)) sl = Some x).
    { revert Hp. unfold sstep, calls. cbn [graph]. rewrite Ec, Ed. auto. }
    destruct (call_shape _ _ _ Ec Ed) as (N1 & N2 & N3 & N4).
    pose proof (step_changes C _ _ _ L W Cp) as Ch.
    assert (Q : ptr (graph (base s)) sl = Some x).
    { destruct (ch_ptr _ _ _ _ Ch sl) as [Q|[[_ Q]|[(o & o' & Q & _)|[(t & g & Q & Q2 & _)|[_ [_ Q]]]]]].
      + congruence.
      + congruence.
      + exfalso. eapply N2; eauto.
      + exfalso. destruct (N3 t g Q) as (nt & ng & -> & _). eapply Dec; eauto.
      + exfalso. apply Ho. unfold sstep, calls. cbn [graph]. rewrite Ec, Ed. exact Q. }
    destruct (N _ _ _ Q Ht R) as [n Hn]. exists n. rewrite step_names, Ec, Ed. exact Hn.
Qed.

Lemma named_cmds : forall l (s : pst), Inv s -> careful_cmds C (base s) l -> Named (base s) ->
  Named (base (fold_left (pstep C) l s)).
Proof.
  induction l as [|c r IH]; intros s I H N; cbn in *; auto. destruct H as [H1 H2]. apply IH; auto.
  - apply inv_step; auto.
  - apply named_step; auto.
Qed.

Lemma named_script : forall p l, careful_script C p l -> Named (base (pscript C p l)).
Proof. intros p l H. apply named_cmds; auto; [apply inv_start|]. intros sl x k Hp. discriminate. Qed.

(** The groups of a structure and their demand parameters. *)
Lemma structure_named : forall p l t j g, careful_script C p l ->
  let s := pscript C p l in
  uses s (SEntry t j) g ->
  exists n e m i a, means s TGrp n g /\ ids s g = Some n /\ uses s (SEdp g) e /\ means s TEdp m e /\ ids s e = Some m /\
    uses s (SBase e) i /\ means s TIm a i /\ ids s i = Some a.
Proof.
  intros p l t j g Hc s Hu. pose proof (inv_script C p l Hc) as I. pose proof (named_script p l Hc) as N. fold s in I, N.
  destruct (N _ _ TGrp Hu eq_refl eq_refl) as [n Hn].
  pose proof (i_good _ I) as [L W E].
  assert (Hk := E _ _ _ Hn). apply kd_is in Hk. cbn in Hk.
  pose proof (whole_im_of_grp _ _ _ L W Hk) as Hi. unfold im_of_grp in Hi.
  destruct (ptr (graph (base s)) (SEdp g)) as [e|] eqn:Ee; [|congruence].
  destruct (ptr (graph (base s)) (SBase e)) as [i|] eqn:Ei; [|congruence].
  destruct (N _ _ TEdp Ee eq_refl eq_refl) as [m Hm]. destruct (N _ _ TIm Ei eq_refl eq_refl) as [a Ha].
  exists n, e, m, i, a. unfold means, uses.
  assert (Q : forall k n o, names (base s) k n = Some o -> k <> TStr -> ids s o = Some n) by (apply (i_ids _ I)).
  repeat split; auto; eapply Q; eauto; discriminate.
Qed.

End Proofs.

(** A group in a structure is defined again, added to another, and defined a third
    time. *)
Definition thrice : list (@cmd nat nat) :=
  start ++ [DefStr 0; AddTo 0 0; DefGrp 0 1 0 0 (Some 0) None; DefStr 1; AddTo 1 0; DefGrp 0 1 0 0 (Some 0) None].

Lemma refute_structure_named : exists (l : list (@cmd nat nat)) a t j g,
  means (pscript adding 0 l) TStr a t /\ In j (entries (graph (base (pscript adding 0 l))) t) /\
  uses (pscript adding 0 l) (SEntry t j) g /\ forall n, ~ means (pscript adding 0 l) TGrp n g.
Proof.
  exists thrice, 0, 9, 10, 11.
  split; [vm_compute; reflexivity|]. split; [vm_compute; auto|]. split; [vm_compute; reflexivity|].
  intros n. unfold means. vm_compute. destruct n; discriminate.
Qed.
