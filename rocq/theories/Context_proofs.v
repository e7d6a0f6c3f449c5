(** * Proofs about diagnostic context *)
From Coq Require Import List Arith Bool Lia.
From Verif Require Import Context Context_spec.
Import ListNotations.

Section Proofs.
Context {X : Type}.
Implicit Types (c : ctx X) (t u : thread X) (q : list nat) (p : nest) (x : X).

(** ** Nodes of the tree *)

Definition child c i : ctx X := match nth_error (ctx_threads c) i with Some (Some d) => d | _ => new_ctx end.
Fixpoint node c q : ctx X := match q with [] => c | i :: q => node (child c i) q end.
Definition width c q : nat := length (ctx_threads (node c q)).

Lemma child_new : forall i, child new_ctx i = new_ctx.
Proof. intros [|i]; reflexivity. Qed.
Lemma node_new : forall q, node new_ctx q = new_ctx.
Proof. induction q as [|i q IH]; cbn; [reflexivity|]. rewrite child_new. exact IH. Qed.
Lemma child_none : forall (l : list X) i, child (Ctx l []) i = new_ctx.
Proof. intros l [|i]; reflexivity. Qed.
Lemma node_app : forall q r c, node c (q ++ r) = node (node c q) r.
Proof. induction q as [|i q IH]; intros r c; cbn; auto. Qed.

Lemma assign_length : forall A i (y : A) l, length (assign i y l) = length l.
Proof. intros A i y l. revert i. induction l as [|z l IH]; intros [|i]; cbn; auto. Qed.
Lemma assign_same : forall A i (y : A) l, i < length l -> nth_error (assign i y l) i = Some y.
Proof. intros A i y l. revert i. induction l as [|z l IH]; intros [|i] H; cbn in *; try lia; auto with arith. Qed.
Lemma assign_other : forall A i j (y : A) l, i <> j -> nth_error (assign i y l) j = nth_error l j.
Proof. intros A i j y l. revert i j. induction l as [|z l IH]; intros [|i] [|j] H; cbn; auto; lia. Qed.

Lemma nth_repeat_none : forall A (y : A) n i, i < n -> nth_error (repeat y n) i = Some y.
Proof. intros A y. induction n as [|n IH]; intros [|i] H; cbn; try lia; auto with arith. Qed.

(** ** The descent *)

Fixpoint fit p c : Prop :=
  match p with
  | [] => True
  | (i, n) :: p => i < n /\ (length (ctx_threads c) = 0 \/ length (ctx_threads c) = n) /\ fit p (child c i)
  end.

Definition prefix (q r : list nat) : Prop := exists s, r = q ++ s.

Lemma prefix_cons : forall i q r, prefix (i :: q) (i :: r) <-> prefix q r.
Proof.
  intros i q r. split; intros [s H]; exists s; cbn in *; [injection H; auto|rewrite H; reflexivity].
Qed.

Lemma update_ok : forall p (f : ctx X -> ctx X) c, fit p c -> exists c', update f p c = Some c' /\
  (forall r, node c' (map fst p ++ r) = node (f (node c (map fst p))) r) /\
  (forall q, ~ prefix (map fst p) q -> ctx_texts (node c' q) = ctx_texts (node c q)) /\
  (forall q, ~ prefix (map fst p) q -> width c' q = width c q \/
     exists p1 i n p2, p = p1 ++ (i, n) :: p2 /\ q = map fst p1 /\ width c' q = n).
Proof.
  induction p as [|[i n] p IH]; intros f c F.
  - exists (f c). cbn. refine (conj eq_refl (conj (fun r => eq_refl) (conj _ _))); intros q N; exfalso; apply N; exists q; reflexivity.
  - destruct F as (Hi & Hw & F). destruct (IH f _ F) as (d & Ed & A & B & C).
    set (l := match ctx_threads c with [] => repeat None n | l => l end).
    assert (Ll : length l = n).
    { unfold l. destruct (ctx_threads c) as [|y r] eqn:E; [apply repeat_length|]. destruct Hw as [Hw|Hw]; [cbn in Hw; lia|exact Hw]. }
    assert (Nl : forall j, match nth_error l j with Some (Some e) => e | _ => new_ctx end = child c j).
    { intros j. unfold l, child. destruct (ctx_threads c) as [|y r] eqn:E; [|reflexivity].
      destruct (Nat.lt_ge_cases j n) as [H|H].
      - rewrite nth_repeat_none by exact H. destruct j; reflexivity.
      - rewrite (proj2 (nth_error_None _ _)) by (rewrite repeat_length; exact H). destruct j; reflexivity. }
    destruct (nth_error l i) as [o|] eqn:Eo.
    2: { apply nth_error_None in Eo. lia. }
    assert (Ec : (match o with None => new_ctx | Some e => e end) = child c i).
    { rewrite <- Nl, Eo. destruct o; reflexivity. }
    exists (Ctx (ctx_texts c) (assign i (Some d) l)).
    assert (Ci : child (Ctx (ctx_texts c) (assign i (Some d) l)) i = d).
    { unfold child. cbn [ctx_threads]. rewrite assign_same by lia. reflexivity. }
    assert (Cj : forall j, i <> j -> child (Ctx (ctx_texts c) (assign i (Some d) l)) j = child c j).
    { intros j H. rewrite <- Nl. unfold child. cbn [ctx_threads]. rewrite assign_other by exact H. reflexivity. }
    refine (conj _ (conj _ (conj _ _))).
    + cbn [update]. fold l. rewrite Eo, Ec, Ed. reflexivity.
    + intros r. cbn [map fst app node]. rewrite Ci. apply A.
    + intros [|j q] N; [reflexivity|]. cbn [node]. destruct (Nat.eq_dec i j) as [<-|H].
      * rewrite Ci. apply B. intros Q. apply N. cbn. apply prefix_cons. exact Q.
      * rewrite Cj by exact H. reflexivity.
    + intros [|j q] N.
      * right. exists [], i, n, p. refine (conj eq_refl (conj eq_refl _)). unfold width. cbn [node ctx_threads]. rewrite assign_length. exact Ll.
      * unfold width. cbn [node]. destruct (Nat.eq_dec i j) as [<-|H].
        -- rewrite Ci. destruct (C q) as [E|(p1 & k & m & p2 & E1 & E2 & E3)].
           ++ intros Q. apply N. cbn. apply prefix_cons. exact Q.
           ++ left. exact E.
           ++ right. exists ((i, n) :: p1), k, m, p2. refine (conj _ (conj _ E3)); [rewrite E1; reflexivity|rewrite E2; reflexivity].
        -- rewrite Cj by exact H. left. reflexivity.
Qed.

(** ** Who owns which node *)

Fixpoint chain t : list X :=
  match t with
  | Thread s l => s ++ match l with [u] => chain u | _ => [] end
  end.

Fixpoint own t q : list X :=
  match q, t with
  | [], _ => chain t
  | i :: q, Thread s l =>
      match l with
      | [] | [_] => []
      | _ => match nth_error l i with Some u => own u q | None => [] end
      end
  end.

Definition active (e : nat * nat) : bool := Nat.ltb 1 (snd e).
Definition apath pos t : nest := filter active (enclosing pos t).

Lemma own_region : forall s l i q, 2 <= length l -> own (Thread s l) (i :: q) = match nth_error l i with Some u => own u q | None => [] end.
Proof. intros s [|u [|v l]] i q H; cbn in H; try lia. reflexivity. Qed.
Lemma chain_region : forall s l, length l <> 1 -> chain (Thread s l) = s.
Proof. intros s [|u [|v l]] H; cbn in *; try lia; apply app_nil_r. Qed.
Lemma own_short : forall s l i q, length l <= 1 -> own (Thread s l) (i :: q) = [].
Proof. intros s [|u [|v l]] i q H; cbn in *; try lia; reflexivity. Qed.

Lemma serial_apath : forall t, serial t -> forall pos, apath pos t = [].
Proof.
  induction 1 as [s|s u H IH]; intros [|i pos]; try reflexivity; unfold apath; cbn.
  - destruct i; reflexivity.
  - destruct i as [|i]; [apply IH|]. destruct i; reflexivity.
Qed.

Lemma apath_region : forall s l i pos u, 2 <= length l -> nth_error l i = Some u ->
  apath (i :: pos) (Thread s l) = (i, length l) :: apath pos u.
Proof.
  intros s l i pos u H E. unfold apath. cbn [enclosing filter]. unfold active at 1. cbn [snd].
  replace (1 <? length l) with true by (symmetry; apply Nat.ltb_lt; lia). rewrite E. reflexivity.
Qed.

Lemma uniform_firstn : forall sizes pos d t, uniform sizes d t -> firstn (length (apath pos t)) (enclosing pos t) = apath pos t.
Proof.
  intros sizes. induction pos as [|i pos IH]; intros d t U; [reflexivity|]. destruct U as [d t S|d s l H2 L U].
  - rewrite (serial_apath t S). reflexivity.
  - destruct (nth_error l i) as [u|] eqn:E.
    + rewrite (apath_region s l i pos u) by (assumption || lia). cbn [length firstn enclosing]. rewrite E. f_equal.
      apply (IH (S d) u). eapply U. exact E.
    + unfold apath. cbn [enclosing]. rewrite E. cbn [filter]. unfold active. cbn [snd].
      replace (1 <? length l) with true by (symmetry; apply Nat.ltb_lt; lia). reflexivity.
Qed.

Lemma active_nest : forall pos t, active_level (nest_of pos t) = length (apath pos t).
Proof. intros pos t. reflexivity. Qed.

Lemma uniform_path : forall sizes pos t, uniform sizes 0 t ->
  firstn (S (active_level (nest_of pos t))) (nest_of pos t) = (0, 1) :: apath pos t /\
  lock_path (nest_of pos t) = match apath pos t with [] => [] | l => (0, 1) :: l end.
Proof.
  intros sizes pos t U. rewrite active_nest. unfold lock_path. rewrite active_nest. unfold nest_of. cbn [firstn].
  pose proof (uniform_firstn sizes pos 0 t U) as F. rewrite F. split; [reflexivity|].
  destruct (apath pos t) as [|e l] eqn:E; cbn [length]; [reflexivity|].
  cbn [firstn]. f_equal. rewrite <- E in F |- *. rewrite E in F at 1. exact F.
Qed.

(** ** Steps of a thread *)

Lemma act_running : forall a pos t t', act_at a pos t = Some t' ->
  match a with Join => True | _ => running pos t end.
Proof.
  intros a. induction pos as [|i pos IH]; intros [s l] t' H.
  - cbn in H. destruct a as [x| |n|]; auto; cbn; destruct l as [|u l]; auto; try discriminate.
    + destruct s; discriminate.
    + destruct n; discriminate.
  - cbn in H. destruct (nth_error l i) as [u|] eqn:E; [|discriminate].
    destruct (act_at a pos u) as [u'|] eqn:F; [|discriminate]. specialize (IH u u' F). cbn. rewrite E. destruct a; auto.
Qed.

Definition edits (a : action X) : Prop := match a with Open _ | Close => True | _ => False end.

Lemma act_edit : forall sizes a, edits a -> forall pos d t t', uniform sizes d t -> act_at a pos t = Some t' ->
  apath pos t' = apath pos t /\
  exists pre s s', act a (Thread s []) = Some (Thread s' []) /\
    own t (map fst (apath pos t)) = pre ++ s /\ own t' (map fst (apath pos t)) = pre ++ s' /\
    forall q, q <> map fst (apath pos t) -> own t' q = own t q.
Proof.
  intros sizes a Ha. induction pos as [|i pos IH]; intros d t t' U H.
  - cbn [act_at] in H. destruct t as [s l].
    assert (L : l = []) by (destruct a as [x| |n|]; try contradiction; destruct l as [|u l]; cbn in H; auto; [discriminate|destruct s; discriminate]).
    subst l. assert (S' : exists s', t' = Thread s' []).
    { destruct a as [x| |n|]; try contradiction; cbn in H; [|destruct s; [discriminate|]]; injection H; intros <-; eauto. }
    destruct S' as [s' ->]. split; [reflexivity|]. exists [], s, s'. cbn. rewrite !app_nil_r.
    refine (conj H (conj eq_refl (conj eq_refl _))). intros [|j q] Q; [congruence|reflexivity].
  - destruct t as [s l]. cbn [act_at] in H. destruct (nth_error l i) as [u|] eqn:E; [|discriminate].
    destruct (act_at a pos u) as [u'|] eqn:F; [|discriminate]. injection H. intros <-.
    assert (Hi : i < length l) by (apply nth_error_Some; congruence).
    destruct (Nat.lt_ge_cases (length l) 2) as [Hl|Hl].
    + destruct l as [|v [|w l]]; cbn in Hl, Hi; try lia. assert (i = 0) by lia. subst i. cbn in E. injection E. intros ->.
      assert (Su : serial u).
      { inversion U as [d0 t0 S0|d0 s0 l0 H2 L0]; subst; [inversion S0; assumption|]. cbn in L0. lia. }
      destruct (IH d u u' (uniform_serial sizes d u Su) F) as (Ap & pre & r & r' & Ea & E1 & E2 & E3).
      rewrite (serial_apath u Su) in *. cbn [map own] in E1, E2.
      assert (Ap1 : apath (0 :: pos) (Thread s [u]) = []) by (apply serial_apath; constructor; exact Su).
      assert (Ap2 : apath (0 :: pos) (Thread s [u']) = []) by (unfold apath in *; cbn; exact Ap).
      cbn [assign]. rewrite Ap1. split; [exact Ap2|]. exists (s ++ pre), r, r'. refine (conj Ea (conj _ (conj _ _))).
      * cbn [map own chain]. rewrite E1, app_assoc. reflexivity.
      * cbn [map own chain]. rewrite E2, app_assoc. reflexivity.
      * intros [|j q] Q; [cbn in Q; congruence|reflexivity].
    + assert (Uu : uniform sizes (S d) u).
      { inversion U as [d0 t0 S0|d0 s0 l0 H2 L0 U0]; subst.
        - inversion S0; subst; cbn in Hl; lia.
        - eapply U0. exact E. }
      destruct (IH (S d) u u' Uu F) as (Ap & pre & r & r' & Ea & E1 & E2 & E3).
      assert (Hl' : 2 <= length (assign i u' l)) by (rewrite assign_length; exact Hl).
      rewrite (apath_region s l i pos u Hl E).
      rewrite (apath_region s (assign i u' l) i pos u' Hl' (assign_same _ i u' l Hi)).
      split; [rewrite assign_length, Ap; reflexivity|]. exists pre, r, r'. cbn [map fst].
      rewrite !own_region by assumption. rewrite E, assign_same by exact Hi. refine (conj Ea (conj E1 (conj E2 _))).
      intros [|j q] Q.
      * cbn [own]. rewrite !chain_region by (rewrite ?assign_length; lia). reflexivity.
      * rewrite !own_region by assumption. destruct (Nat.eq_dec i j) as [<-|N].
        -- rewrite E, assign_same by exact Hi. apply E3. congruence.
        -- rewrite assign_other by exact N. reflexivity.
Qed.

Lemma own_chain : forall t t', (forall q, own t q = own t' q) -> chain t = chain t'.
Proof. intros t t' H. exact (H []). Qed.

Lemma own_repeat : forall n j q, match nth_error (repeat (Thread [] []) n) j with Some u => own u q | None => [] end = [].
Proof.
  intros n j q. destruct (nth_error (repeat (Thread [] []) n) j) as [u|] eqn:E; [|reflexivity].
  apply nth_error_In, repeat_spec in E. subst u. destruct q as [|k q]; [reflexivity|]. destruct k; reflexivity.
Qed.

Lemma act_fork : forall a, ~ edits a -> forall pos t t', act_at a pos t = Some t' -> forall q, own t' q = own t q.
Proof.
  intros a Ha. induction pos as [|i pos IH]; intros [s l] t' H q.
  - cbn [act_at] in H. destruct a as [x| |n|]; try (exfalso; apply Ha; exact I); unfold act in H.
    + destruct n as [|n]; [discriminate|]. destruct l; [|discriminate]. injection H. intros <-.
      destruct q as [|j q].
      * cbn. destruct n; reflexivity.
      * rewrite (own_short s []) by (cbn; lia). destruct n as [|n]; [reflexivity|].
        rewrite own_region by (cbn; lia). apply (own_repeat (S (S n))).
    + destruct l as [|u l]; [discriminate|]. match type of H with (if ?b then _ else _) = _ => destruct b eqn:A; [|discriminate] end.
      assert (All : forall v, In v (u :: l) -> v = Thread [] []).
      { intros v Hv. rewrite forallb_forall in A. specialize (A v Hv). destruct v as [[|] [|]]; try discriminate. reflexivity. }
      injection H. intros <-. destruct q as [|j q].
      * cbn. destruct l; [|reflexivity]. rewrite (All u (or_introl eq_refl)). reflexivity.
      * rewrite (own_short s []) by (cbn; lia). destruct (Nat.lt_ge_cases (length (u :: l)) 2) as [B|B].
        { rewrite own_short by lia. reflexivity. }
        rewrite own_region by exact B. destruct (nth_error (u :: l) j) as [v|] eqn:E; [|reflexivity].
        rewrite (All v) by (eapply nth_error_In; exact E). destruct q as [|k q]; [reflexivity|]. destruct k; reflexivity.
  - cbn [act_at] in H. destruct (nth_error l i) as [u|] eqn:E; [|discriminate].
    destruct (act_at a pos u) as [u'|] eqn:F; [|discriminate]. injection H. intros <-. specialize (IH u u' F).
    assert (Hi : i < length l) by (apply nth_error_Some; congruence).
    destruct (Nat.lt_ge_cases (length l) 2) as [Hl|Hl].
    + destruct l as [|v [|w l]]; cbn in Hl, Hi; try lia. assert (i = 0) by lia. subst i. cbn in E. injection E. intros ->.
      destruct q as [|j q]; [|reflexivity]. cbn. f_equal. apply own_chain. exact IH.
    + destruct q as [|j q].
      * cbn [own]. rewrite !chain_region by (rewrite ?assign_length; lia). reflexivity.
      * rewrite !own_region by (rewrite ?assign_length; lia). destruct (Nat.eq_dec i j) as [<-|N].
        -- rewrite E, assign_same by exact Hi. apply IH.
        -- rewrite assign_other by exact N. reflexivity.
Qed.

Lemma uniform_region_inv : forall sizes d s l, uniform (X := X) sizes d (Thread s l) -> 2 <= length l ->
  length l = sizes d /\ forall i u, nth_error l i = Some u -> uniform sizes (S d) u.
Proof.
  intros sizes d s l U H. inversion U as [d0 t0 S0|d0 s0 l0 H2 L0 U0]; subst; [|auto].
  inversion S0; subst; cbn in H; lia.
Qed.

Lemma uniform_serial_inv : forall sizes d s u, uniform (X := X) sizes d (Thread s [u]) -> serial u.
Proof.
  intros sizes d s u U. inversion U as [d0 t0 S0|d0 s0 l0 H2 L0 U0]; subst; [inversion S0; assumption|cbn in L0; lia].
Qed.

Lemma own_beyond : forall sizes pos d t, uniform sizes d t -> running pos t -> forall j r, own t (map fst (apath pos t) ++ j :: r) = [].
Proof.
  intros sizes. induction pos as [|i pos IH]; intros d [s l] U R j r.
  - cbn in R. subst l. reflexivity.
  - cbn [running] in R. destruct (nth_error l i) as [u|] eqn:E; [|contradiction].
    destruct (Nat.lt_ge_cases (length l) 2) as [Hl|Hl].
    + assert (A : apath (i :: pos) (Thread s l) = []).
      { apply serial_apath. destruct l as [|v [|w l]]; cbn in Hl; try lia; [constructor|].
        constructor. eapply uniform_serial_inv. exact U. }
      rewrite A. apply own_short. lia.
    + rewrite (apath_region s l i pos u Hl E). cbn [map fst app]. rewrite own_region by exact Hl. rewrite E.
      destruct (uniform_region_inv _ _ _ _ U Hl) as [_ U']. apply (IH (S d) u); [eapply U'; exact E|exact R].
Qed.

(** ** What is read *)

Fixpoint prefixes q : list (list nat) := [] :: match q with [] => [] | i :: q => map (cons i) (prefixes q) end.

Lemma scopes_own : forall sizes pos d t, uniform sizes d t -> running pos t ->
  open_scopes pos t = Some (concat (map (own t) (prefixes (map fst (apath pos t))))).
Proof.
  intros sizes. induction pos as [|i pos IH]; intros d [s l] U R.
  - cbn in R. subst l. cbn. rewrite !app_nil_r. reflexivity.
  - cbn [running] in R. cbn [open_scopes]. destruct (nth_error l i) as [u|] eqn:E; [|contradiction].
    destruct (Nat.lt_ge_cases (length l) 2) as [Hl|Hl].
    + destruct l as [|v [|w l]]; cbn in Hl; try lia; [destruct i; discriminate|].
      destruct i as [|i]; [|destruct i; discriminate]. cbn in E. injection E. intros ->.
      pose proof (uniform_serial_inv _ _ _ _ U) as Su. rewrite (IH d u (uniform_serial sizes d u Su) R).
      rewrite (serial_apath u Su), (serial_apath (Thread s [u])) by (constructor; exact Su).
      cbn. rewrite !app_nil_r. reflexivity.
    + destruct (uniform_region_inv _ _ _ _ U Hl) as [_ U'].
      rewrite (IH (S d) u (U' i u E) R). rewrite (apath_region s l i pos u Hl E). cbn [map fst prefixes concat own].
      rewrite chain_region by lia. f_equal. f_equal. rewrite !map_map. f_equal. apply map_ext. intros q.
      rewrite own_region by exact Hl. rewrite E. reflexivity.
Qed.

Fixpoint within (q : list nat) c : Prop :=
  match q with
  | [] => True
  | i :: q => (length (ctx_threads c) = 0 \/ i < length (ctx_threads c)) /\ within q (child c i)
  end.

Lemma fit_within : forall p c, fit p c -> within (map fst p) c.
Proof.
  induction p as [|[i n] p IH]; intros c F; [exact I|]. destruct F as (H & W & F). split; [cbn; lia|]. apply IH. exact F.
Qed.

Lemma concat_empty : forall q, concat (map (fun r => ctx_texts (node (new_ctx (X := X)) r)) (prefixes q)) = [].
Proof.
  induction q as [|i q IH]; [reflexivity|]. cbn [prefixes map concat]. cbn [node ctx_texts new_ctx app]. rewrite map_map.
  rewrite <- IH. f_equal. apply map_ext. intros r. rewrite !node_new. reflexivity.
Qed.

Lemma read_ok : forall q n c, within q c -> exists r, read n q c = Some r /\
  ctx_texts c ++ map fst r = concat (map (fun r => ctx_texts (node c r)) (prefixes q)).
Proof.
  induction q as [|i q IH]; intros n c W.
  - exists []. split; [reflexivity|]. cbn. reflexivity.
  - destruct W as [Hi W]. cbn [read prefixes map concat]. cbn [node]. rewrite map_map.
    change (map (fun r => ctx_texts (node c (i :: r))) (prefixes q)) with (map (fun r => ctx_texts (node (child c i) r)) (prefixes q)).
    destruct (ctx_threads c) as [|y l] eqn:El.
    + exists []. split; [reflexivity|]. cbn [map]. f_equal. assert (C : child c i = new_ctx) by (unfold child; rewrite El; destruct i; reflexivity).
      rewrite C, concat_empty. reflexivity.
    + assert (Hn : nth_error (y :: l) i <> None) by (apply nth_error_Some; cbn in *; lia).
      destruct (nth_error (y :: l) i) as [[d|]|] eqn:E; [| |congruence].
      * assert (C : child c i = d) by (unfold child; rewrite El, E; reflexivity). rewrite C in *.
        destruct (IH (S n) d W) as (r & -> & Er). eexists. split; [reflexivity|]. f_equal. rewrite <- Er, map_app, map_map. cbn [fst].
        rewrite map_id. reflexivity.
      * assert (C : child c i = new_ctx) by (unfold child; rewrite El, E; reflexivity). rewrite C in *.
        exists []. split; [reflexivity|]. rewrite concat_empty. reflexivity.
Qed.

(** ** The invariant *)

Record inv (sizes : nat -> nat) (t : thread X) (c : ctx X) : Prop := {
  inv_uniform : uniform sizes 0 t;
  inv_root : ctx_texts c = own t [];
  inv_middle : ctx_texts (node c [0]) = [];
  inv_own : forall i q, ctx_texts (node c (0 :: i :: q)) = own t (i :: q);
  inv_width : length (ctx_threads c) = 0 \/ length (ctx_threads c) = 1;
  inv_widths : forall q, width c (0 :: q) = 0 \/ width c (0 :: q) = sizes (length q)
}.

Lemma apath_entries : forall sizes pos d t, uniform sizes d t -> running pos t ->
  forall p1 i n p2, apath pos t = p1 ++ (i, n) :: p2 -> i < n /\ n = sizes (d + length p1).
Proof.
  intros sizes. induction pos as [|j pos IH]; intros d [s l] U R p1 i n p2 H.
  - destruct p1; discriminate.
  - cbn [running] in R. destruct (nth_error l j) as [u|] eqn:E; [|contradiction].
    destruct (Nat.lt_ge_cases (length l) 2) as [Hl|Hl].
    + assert (A : apath (j :: pos) (Thread s l) = []).
      { apply serial_apath. destruct l as [|v [|w l]]; cbn in Hl; try lia; [constructor|].
        constructor. eapply uniform_serial_inv. exact U. }
      rewrite A in H. destruct p1; discriminate.
    + destruct (uniform_region_inv _ _ _ _ U Hl) as [L U']. rewrite (apath_region s l j pos u Hl E) in H.
      destruct p1 as [|e p1]; cbn in H; injection H; clear H.
      * intros _ <- <-. split; [apply nth_error_Some; congruence|]. rewrite L. f_equal. cbn. lia.
      * intros H <-. destruct (IH (S d) u (U' j u E) R _ _ _ _ H) as [A B]. split; [exact A|]. rewrite B. f_equal. cbn. lia.
Qed.

Lemma fit_of : forall (size : nat -> nat) p c,
  (forall p1 i n p2, p = p1 ++ (i, n) :: p2 -> i < n /\ n = size (length p1)) ->
  (forall q, width c q = 0 \/ width c q = size (length q)) -> fit p c.
Proof.
  intros size p. revert size. induction p as [|[i n] p IH]; intros size c H W; [exact I|].
  destruct (H [] i n p eq_refl) as [Hi Hn]. refine (conj Hi (conj _ _)).
  - destruct (W []) as [E|E]; [left; exact E|right; rewrite Hn; exact E].
  - apply (IH (fun k => size (S k))).
    + intros p1 j m p2 E. apply (H ((i, n) :: p1) j m p2). rewrite E. reflexivity.
    + intros q. exact (W (i :: q)).
Qed.

Lemma inv_fit : forall sizes t c pos, inv sizes t c -> running pos t -> fit ((0, 1) :: apath pos t) c.
Proof.
  intros sizes t c pos V R. destruct V as [U _ _ _ W Ws]. refine (conj _ (conj W _)); [lia|].
  apply (fit_of sizes).
  - intros p1 i n p2 E. exact (apath_entries sizes pos 0 t U R p1 i n p2 E).
  - intros q. exact (Ws q).
Qed.

Lemma inv_text : forall sizes t c pos, inv sizes t c -> running pos t -> exists r,
  text_at (t, c) pos = Some r /\ open_scopes pos t = Some (map fst r).
Proof.
  intros sizes t c pos V R. pose proof (inv_fit _ _ _ _ V R) as F. destruct V as [U Er Em Eo W Ws].
  unfold text_at, get_text. cbn [fst snd]. destruct (uniform_path sizes pos t U) as [-> _].
  destruct (read_ok (map fst ((0, 1) :: apath pos t)) 1 c (fit_within _ _ F)) as (r & -> & H).
  eexists. split; [reflexivity|]. rewrite (scopes_own sizes pos 0 t U R). f_equal.
  rewrite map_app, map_map. cbn [fst]. rewrite map_id, H. cbn [map fst prefixes concat node]. rewrite map_map.
  destruct (map fst (apath pos t)) as [|i q]; cbn [prefixes map concat].
  - cbn [node] in *. rewrite Er, Em. reflexivity.
  - cbn [node] in *. rewrite Er, Em. cbn [app]. f_equal. rewrite !map_map. f_equal. apply map_ext. intros k. symmetry. exact (Eo i k).
Qed.

Lemma edit_texts : forall (a : action X) s s' c, edits a -> act a (Thread s []) = Some (Thread s' []) -> forall pre,
  ctx_texts c = pre ++ s ->
  exists c', (match a with Open x => push x c | _ => pop c end) = c' /\ ctx_texts c' = pre ++ s' /\ ctx_threads c' = [].
Proof.
  intros [x| |n|] s s' c Ha H pre E; try contradiction; eexists; (split; [reflexivity|]).
  - cbn in H. injection H. intros <-. unfold push. cbn. rewrite E, app_assoc. auto.
  - cbn in H. destruct s as [|y s]; [discriminate|]. injection H. intros <-. unfold pop.
    destruct (ctx_texts c) as [|z l]; [destruct pre; discriminate|]. cbn [ctx_texts ctx_threads]. split; [|reflexivity].
    rewrite E, removelast_app by discriminate. reflexivity.
Qed.

Lemma edits_dec : forall a : action X, edits a \/ ~ edits a.
Proof. intros [x| |n|]; cbn; tauto. Qed.

Lemma node_bare : forall c i q, ctx_threads c = [] -> node c (i :: q) = new_ctx.
Proof. intros [x l] i q E. cbn in E. subst l. cbn [node]. rewrite child_none. apply node_new. Qed.

Definition touch (a : action X) p c : option (ctx X) :=
  match a with Open x => update (push x) p c | Close => update pop p c | _ => Some c end.

Lemma step_touch : forall t c pos a, step (t, c) pos a =
  match act_at a pos t with
  | None => Impossible
  | Some t' => match touch a (lock_path (nest_of pos t)) c with None => OutOfRange | Some c' => Next (t', c') end
  end.
Proof. reflexivity. Qed.

Lemma inv_step : forall sizes t c pos a, inv sizes t c ->
  step (t, c) pos a <> OutOfRange /\
  (forall t' c', step (t, c) pos a = Next (t', c') -> uniform sizes 0 t' -> inv sizes t' c').
Proof.
  intros sizes t c pos a V. rewrite step_touch. destruct (act_at a pos t) as [t1|] eqn:Ea; [|split; [discriminate|intros; discriminate]].
  destruct (edits_dec a) as [Ha|Ha].
  - assert (R : running pos t) by (pose proof (act_running a pos t t1 Ea) as R; destruct a; try contradiction; exact R).
    pose proof (inv_fit _ _ _ _ V R) as F. destruct V as [U Er Em Eo W Ws].
    destruct (act_edit sizes a Ha pos 0 t t1 U Ea) as (_ & pre & s & s' & Ac & O1 & O2 & O3).
    pose proof (own_beyond sizes pos 0 t U R) as Ob.
    destruct (uniform_path sizes pos t U) as [_ ->].
    set (f := fun d : ctx X => match a with Open x => push x d | _ => pop d end).
    match goal with |- context [touch a ?P c] => set (path := P) end.
    assert (Eu : touch a path c = update f path c).
    { unfold f. destruct a; try contradiction; reflexivity. }
    rewrite Eu. set (ap := map fst (apath pos t)) in *.
    destruct (apath pos t) as [|e l] eqn:Ap.
    + cbn [update path]. split; [discriminate|]. intros t' c' H U'. injection H. intros <- <-. subst ap. cbn [map] in *.
      rewrite O1 in Er. destruct (edit_texts a s s' c Ha Ac pre Er) as (d & Ed & Dt & Dn).
      change (f c) with (match a with Open x => push x c | _ => pop c end). rewrite Ed.
      constructor; auto.
      * rewrite O2. exact Dt.
      * rewrite node_bare by exact Dn. reflexivity.
      * intros i q. rewrite node_bare by exact Dn. rewrite O3 by discriminate. symmetry. exact (Ob i q).
      * left. rewrite Dn. reflexivity.
      * intros q. left. unfold width. rewrite node_bare by exact Dn. reflexivity.
    + assert (Pf : fit path c) by exact F.
      destruct (update_ok path f c Pf) as (c1 & -> & A & B & C). split; [discriminate|]. intros t' c' H U'. injection H. intros <- <-.
      assert (Mp : map fst path = 0 :: ap) by reflexivity. rewrite Mp in A, B, C.
      assert (Enode : ctx_texts (node c (0 :: ap)) = pre ++ s).
      { rewrite <- O1. subst ap. cbn [map]. apply Eo. }
      destruct (edit_texts a s s' (node c (0 :: ap)) Ha Ac pre Enode) as (d & Ed & Dt & Dn).
      change (f (node c (0 :: ap))) with (match a with Open x => push x (node c (0 :: ap)) | _ => pop (node c (0 :: ap)) end) in A.
      rewrite Ed in A.
      assert (Ape : ap = fst e :: map fst l) by reflexivity. clearbody ap.
      assert (N0 : ~ prefix (0 :: ap) []) by (intros [r Q]; discriminate).
      assert (N1 : ~ prefix (0 :: ap) [0]) by (rewrite Ape; intros [r Q]; discriminate).
      assert (Cases : forall q, (exists r, q = ap ++ r) \/ ~ prefix (0 :: ap) (0 :: q)).
      { intros q. destruct (list_eq_dec Nat.eq_dec (firstn (length ap) q) ap) as [Q|Q].
        - left. exists (skipn (length ap) q). rewrite <- Q at 1. symmetry. apply firstn_skipn.
        - right. intros [r Hr]. injection Hr. intros Hq. rewrite Hq in Q. apply Q. rewrite firstn_app, Nat.sub_diag, firstn_all. cbn. apply app_nil_r. }
      constructor; auto.
      * specialize (B [] N0). cbn [node] in B. rewrite B, Er. symmetry. apply O3. rewrite Ape. discriminate.
      * rewrite (B [0] N1). exact Em.
      * intros i q. destruct (Cases (i :: q)) as [[r Q]|N].
        -- rewrite Q. specialize (A r). change ((0 :: ap) ++ r) with (0 :: ap ++ r) in A. rewrite A. destruct r as [|j r].
           ++ rewrite app_nil_r. cbn [node]. rewrite Dt. symmetry. exact O2.
           ++ rewrite node_bare by exact Dn. rewrite O3; [symmetry; apply Ob|].
              intros Z. apply (f_equal (@length nat)) in Z. rewrite app_length in Z. cbn in Z. lia.
        -- rewrite (B _ N), Eo. symmetry. apply O3. intros Z. apply N. rewrite Z. exists []. rewrite app_nil_r. reflexivity.
      * destruct (C [] N0) as [Q|(p1 & i & n & p2 & Q1 & Q2 & Q3)]; [unfold width in Q; cbn [node] in Q; rewrite Q; exact W|].
        destruct p1; [|discriminate]. cbn in Q1. injection Q1. intros _ <- _. right. exact Q3.
      * intros q. destruct (Cases q) as [[r ->]|N].
        -- unfold width. specialize (A r). change ((0 :: ap) ++ r) with (0 :: ap ++ r) in A. rewrite A. left. destruct r as [|j r].
           ++ cbn [node]. rewrite Dn. reflexivity.
           ++ rewrite node_bare by exact Dn. reflexivity.
        -- destruct (C _ N) as [Q|(p1 & i & n & p2 & Q1 & Q2 & Q3)]; [rewrite Q; apply Ws|].
           destruct p1 as [|b p1]; [discriminate|]. unfold path in Q1. cbn in Q1. injection Q1. intros Q4 <-. cbn in Q2. injection Q2. intros ->.
           right. rewrite Q3, map_length. destruct (apath_entries sizes pos 0 t U R p1 i n p2) as [_ ->]; [rewrite Ap; exact Q4|reflexivity].
  - assert (Ec : touch a (lock_path (nest_of pos t)) c = Some c) by (destruct a; cbn in Ha; try tauto; reflexivity).
    rewrite Ec. split; [discriminate|]. intros t' c' H U'. injection H. intros <- <-. destruct V as [U Er Em Eo W Ws].
    pose proof (act_fork a Ha pos t t1 Ea) as O. constructor; auto.
    + rewrite O. exact Er.
    + intros i q. rewrite O. apply Eo.
Qed.

Lemma reached_inv : forall sizes (s : state X), reached sizes s -> inv sizes (fst s) (snd s).
Proof.
  induction 1 as [|[t c] pos a [t' c'] H IH St U].
  - cbn. constructor; try (left; reflexivity); try reflexivity.
    + apply uniform_serial. constructor.
    + intros i q. cbn [node]. rewrite !child_new, node_new. reflexivity.
    + intros q. left. unfold width. cbn [node]. rewrite child_new, node_new. reflexivity.
  - exact (proj2 (inv_step sizes t c pos a IH) t' c' St U).
Qed.

Theorem context_text : forall sizes (s : state X) pos, reached sizes s -> running pos (fst s) ->
  exists r, text_at s pos = Some r /\ open_scopes pos (fst s) = Some (map fst r).
Proof. intros sizes [t c] pos H R. exact (inv_text sizes t c pos (reached_inv _ _ H) R). Qed.

Theorem context_safe : forall sizes (s : state X) pos a, reached sizes s -> step s pos a <> OutOfRange.
Proof. intros sizes [t c] pos a H. exact (proj1 (inv_step sizes t c pos a (reached_inv _ _ H))). Qed.

Lemma empty_tree : forall c, (forall q, ctx_texts (node c q) = []) -> all_empty c.
Proof.
  fix IH 1. intros [x l] H. assert (x = []) by exact (H []). subst x. constructor.
  assert (G : forall i d, nth_error l i = Some (Some d) -> forall q, ctx_texts (node d q) = []).
  { intros i d E q. specialize (H (i :: q)). cbn [node] in H. unfold child in H. cbn [ctx_threads] in H. rewrite E in H. exact H. }
  clear H. revert G. induction l as [|o l IHl]; intros G i d E; [destruct i; discriminate|].
  destruct i as [|i].
  - destruct o as [e|]; [|discriminate]. pose proof (IH e (G 0 e eq_refl)) as K. cbn in E. injection E. intros <-. exact K.
  - apply (IHl (fun j => G (S j)) i d E).
Qed.

Theorem context_restored : forall sizes (c : ctx X), reached sizes (Thread [] [], c) -> all_empty c /\ text_at (Thread [] [], c) [] = Some [].
Proof.
  intros sizes c H. pose proof (reached_inv _ _ H) as V. cbn [fst snd] in V. split.
  - destruct V as [U Er Em Eo W Ws]. apply empty_tree. intros [|i [|j q]].
    + exact Er.
    + destruct i as [|i]; [exact Em|]. cbn [node]. unfold child. rewrite (proj2 (nth_error_None _ _)) by lia. reflexivity.
    + destruct i as [|i]; [rewrite Eo; reflexivity|]. cbn [node]. unfold child at 2. rewrite (proj2 (nth_error_None _ _)) by lia.
      rewrite child_new, node_new. reflexivity.
  - destruct (inv_text sizes _ c [] V eq_refl) as (r & -> & E). cbn in E. destruct r; [reflexivity|discriminate].
Qed.

(** ** Where it goes wrong *)

Theorem refute_teams : forall x : X, exists l pos,
  steps start l = OutOfRange /\
  (exists s, steps start (removelast l) = Next s /\ running pos (fst s)) /\
  l = [([], Fork 2); ([1], Open x); ([1], Close); ([], Join); ([], Fork 3); ([2], Open x)].
Proof.
  intros x. exists [([], Fork 2); ([1], Open x); ([1], Close); ([], Join); ([], Fork 3); ([2], Open x)], [2].
  split; [reflexivity|]. split; [|reflexivity]. eexists. split; reflexivity.
Qed.

Theorem refute_nested : forall x : X, exists s r,
  steps start [([], Fork 1); ([0], Fork 2); ([0; 0], Open x)] = Next s /\
  running [0; 1] (fst s) /\ open_scopes [0; 1] (fst s) = Some [] /\ text_at s [0; 1] = Some r /\ map fst r = [x].
Proof. intros x. do 2 eexists. refine (conj eq_refl (conj eq_refl (conj eq_refl (conj eq_refl eq_refl)))). Qed.

End Proofs.
