(** Proofs about [Replaceable]: callback maps, one object, careful histories. *)

Require Import List Arith Bool Lia Sorted.
From Verif Require Import Replaceable Replaceable_spec.
Import ListNotations.

(** ** Callback maps *)

Section Map.
Variable A : Type.
Implicit Types l : list (nat * A).

Fixpoint sorted l : Prop :=
  match l with
  | [] => True
  | (k, _) :: r => (forall k' b, In (k', b) r -> k < k') /\ sorted r
  end.

Lemma in_put : forall l k a k' a', sorted l ->
  (In (k', a') (put k a l) <-> (k' = k /\ a' = a) \/ (k' <> k /\ In (k', a') l)).
Proof.
  induction l as [|[k0 b] r IH]; intros k a k' a' Hs; cbn [put].
  - cbn. split; [intros [E|[]]; inversion E; auto | intros [[-> ->]|[_ []]]; auto].
  - destruct Hs as [Hlt Hs].
    destruct (Nat.ltb_spec k k0) as [L|L].
    + cbn. split.
      * intros [E|[E|I]]; [inversion E; auto|inversion E; subst; right; split; [lia|auto]|].
        right. specialize (Hlt _ _ I). split; [lia|auto].
      * intros [[-> ->]|[_ I]]; auto.
    + destruct (Nat.eqb_spec k k0) as [->|N].
      * cbn. split.
        -- intros [E|I]; [inversion E; auto|]. specialize (Hlt _ _ I). right. split; [lia|auto].
        -- intros [[-> ->]|[N [E|I]]]; auto. inversion E; subst; lia.
      * cbn. rewrite (IH _ _ _ _ Hs). split.
        -- intros [E|[[-> ->]|[N' I]]]; auto. inversion E; subst. right; split; auto.
        -- intros [[-> ->]|[N' [E|I]]]; auto.
Qed.

Lemma sorted_put : forall l k a, sorted l -> sorted (put k a l).
Proof.
  induction l as [|[k0 b] r IH]; intros k a Hs; cbn [put].
  - cbn. split; [intros ? ? []|auto].
  - destruct Hs as [Hlt Hs].
    destruct (Nat.ltb_spec k k0) as [L|L].
    + cbn. split; [|auto].
      intros k' b' [E|I]; [inversion E; subst; auto|]. specialize (Hlt _ _ I). lia.
    + destruct (Nat.eqb_spec k k0) as [->|N].
      * cbn. auto.
      * cbn. split; [|auto]. intros k' b' I. apply in_put in I; [|auto].
        destruct I as [[-> ->]|[_ I]]; [lia|eauto].
Qed.

Lemma in_del : forall l k k' a', sorted l ->
  (In (k', a') (del k l) <-> k' <> k /\ In (k', a') l).
Proof.
  induction l as [|[k0 b] r IH]; intros k k' a' Hs; cbn [del].
  - cbn. tauto.
  - destruct Hs as [Hlt Hs].
    destruct (Nat.eqb_spec k k0) as [->|N].
    + cbn. split.
      * intros I. specialize (Hlt _ _ I). split; [lia|auto].
      * intros [N [E|I]]; auto. inversion E; subst; lia.
    + cbn. rewrite (IH _ _ _ Hs). split.
      * intros [E|[N' I]]; auto. inversion E; subst. auto.
      * intros [N' [E|I]]; auto.
Qed.

Lemma sorted_del : forall l k, sorted l -> sorted (del k l).
Proof.
  induction l as [|[k0 b] r IH]; intros k Hs; cbn [del]; [auto|].
  destruct Hs as [Hlt Hs]. destruct (Nat.eqb_spec k k0); [auto|].
  cbn. split; [|auto]. intros k' b' I. apply in_del in I; [|auto]. destruct I; eauto.
Qed.

Lemma put_last : forall l k a, (forall k' b, In (k', b) l -> k' < k) ->
  put k a l = l ++ [(k, a)].
Proof.
  induction l as [|[k0 b] r IH]; intros k a H; cbn [put]; [auto|].
  assert (k0 < k) by (eapply H; left; reflexivity).
  destruct (Nat.ltb_spec k k0); [lia|]. destruct (Nat.eqb_spec k k0); [lia|].
  cbn. rewrite IH; [auto|]. intros; eapply H; right; eauto.
Qed.

Lemma sorted_key : forall l k a b, sorted l -> In (k, a) l -> In (k, b) l -> a = b.
Proof.
  induction l as [|[k0 c] r IH]; intros k a b Hs I J; [destruct I|].
  destruct Hs as [Hlt Hs].
  destruct I as [E|I], J as [E'|J].
  - congruence.
  - inversion E; subst. specialize (Hlt _ _ J). lia.
  - inversion E'; subst. specialize (Hlt _ _ I). lia.
  - eauto.
Qed.

Lemma sorted_keys_nodup : forall l, sorted l -> NoDup (map fst l).
Proof.
  induction l as [|[k0 c] r IH]; intros Hs; cbn; [constructor|].
  destruct Hs as [Hlt Hs]. constructor; [|auto].
  intros I. apply in_map_iff in I as [[k b] [E I]]. cbn in E; subst.
  specialize (Hlt _ _ I). lia.
Qed.

Lemma values_nodup : forall l,
  sorted l -> (forall k k' a, In (k, a) l -> In (k', a) l -> k = k') -> NoDup (map snd l).
Proof.
  induction l as [|[k0 c] r IH]; intros Hs H; cbn; [constructor|].
  destruct Hs as [Hlt Hs]. constructor.
  - intros I. apply in_map_iff in I as [[k b] [E I]]. cbn in E; subst.
    pose proof (Hlt _ _ I). assert (k0 = k) by (eapply H; [left; reflexivity|right; eauto]). lia.
  - apply IH; [auto|]. intros; eapply H; right; eauto.
Qed.

End Map.
Arguments sorted {A}.

Lemma del_filter : forall (l : list (nat * nat)) k c,
  sorted l -> (forall k k' a, In (k, a) l -> In (k', a) l -> k = k') -> In (k, c) l ->
  map snd (del k l) = filter (fun x => negb (x =? c)) (map snd l).
Proof.
  induction l as [|[k0 b] r IH]; intros k c Hs H I; [destruct I|].
  destruct Hs as [Hlt Hs]. cbn [del].
  destruct (Nat.eqb_spec k k0) as [->|N].
  - assert (b = c).
    { destruct I as [E|I]; [congruence|]. specialize (Hlt _ _ I). lia. }
    subst. cbn. rewrite Nat.eqb_refl. cbn. symmetry.
    assert (NI : ~ In c (map snd r)).
    { intros J. apply in_map_iff in J as [[k b] [E J]]. cbn in E; subst.
      pose proof (Hlt _ _ J). assert (k0 = k) by (eapply H; [left; reflexivity|right; eauto]). lia. }
    clear - NI. induction r as [|[k b] r IH]; cbn in *; [auto|].
    destruct (Nat.eqb_spec b c); [subst; tauto|]. cbn. rewrite IH; tauto.
  - destruct I as [E|I]; [inversion E; lia|].
    cbn. destruct (Nat.eqb_spec b c) as [->|N'].
    + exfalso. pose proof (Hlt _ _ I). assert (k0 = k) by (eapply H; [left; reflexivity|right; eauto]). lia.
    + cbn. f_equal. apply IH; auto. intros; eapply H; right; eauto.
Qed.

(** ** Histories *)

Lemma rafter_snoc : forall h op, rafter (h ++ [op]) = fst (rstep (rafter h) op).
Proof.
  unfold rafter. intros h op.
  assert (G : forall s, fst (rrun s (h ++ [op])) = fst (rstep (fst (rrun s h)) op)).
  { induction h as [|o r IH]; intros s; cbn [rrun app].
    - cbn [fst]. destruct (rstep s op) as [s' ev]. reflexivity.
    - destruct (rstep s o) as [s' ev]. specialize (IH s').
      destruct (rrun s' (r ++ [op])); destruct (rrun s' r). exact IH. }
  apply G.
Qed.

Lemma uses_snoc : forall h op, uses (h ++ [op]) = uses_step (uses h) op.
Proof. intros. unfold uses. apply fold_left_app. Qed.

Lemma in_order_snoc : forall h op, in_order (h ++ [op]) = in_order_step (in_order h) op.
Proof. intros. unfold in_order. apply fold_left_app. Qed.

Lemma sensible_snoc : forall h op, sensible (h ++ [op]) <->
  sensible h /\ match op with RAdd c _ => uses h c = None | RLeave c => uses h c <> None | _ => True end.
Proof.
  unfold sensible, uses. intros h op.
  generalize (fun _ : nat => @None nat). induction h as [|o r IH]; intros u; cbn [app sensible_from fold_left].
  - destruct op; tauto.
  - rewrite (IH (uses_step u o)). tauto.
Qed.

Lemma upd_same : forall B (f : nat -> B) k v, upd f k v k = v.
Proof. intros. unfold upd. rewrite Nat.eqb_refl. auto. Qed.
Lemma upd_other : forall B (f : nat -> B) k v x, x <> k -> upd f k v x = f x.
Proof. intros. unfold upd. destruct (Nat.eqb_spec x k); [lia|auto]. Qed.

Lemma repoint_spec : forall cs o' h c,
  repoint cs o' h c =
  if existsb (Nat.eqb c) cs
  then match h c with Some (_, id) => Some (o', id) | None => None end
  else h c.
Proof.
  unfold repoint. induction cs as [|a r IH]; intros o' h c; cbn [fold_left existsb]; [auto|].
  rewrite IH. destruct (Nat.eqb_spec c a) as [->|N]; cbn [orb].
  - destruct (h a) as [[o id]|] eqn:E; cbn.
    + rewrite upd_same. destruct (existsb _ r); auto.
    + rewrite E. destruct (existsb _ r); auto.
  - destruct (h a) as [[o id]|] eqn:E; cbn.
    + rewrite upd_other by auto. auto.
    + auto.
Qed.

Lemma existsb_in : forall c cs, existsb (Nat.eqb c) cs = true <-> In c cs.
Proof.
  intros. rewrite existsb_exists. split.
  - intros [x [I E]]. apply Nat.eqb_eq in E. subst; auto.
  - intros I. exists c. rewrite Nat.eqb_refl. auto.
Qed.

(** *** One object *)

Record OneInv (o : nat) (h : list rop) : Prop := {
  one_sorted : sorted (r_cbs (objs (rafter h) o));
  one_bound : forall k c, In (k, c) (r_cbs (objs (rafter h) o)) -> k <= r_next (objs (rafter h) o);
  one_held : forall k c, In (k, c) (r_cbs (objs (rafter h) o)) <-> held (rafter h) c = Some (o, k);
  one_only : forall c p k, held (rafter h) c = Some (p, k) -> p = o;
  one_order : clients (objs (rafter h) o) = in_order h;
  one_uses : forall c, uses h c = None <-> held (rafter h) c = None
}.

Lemma only_on_snoc : forall o h op, only_on o (h ++ [op]) -> only_on o h /\ only_on o [op].
Proof.
  unfold only_on. intros o h op H. split; intros x I; apply H; apply in_or_app; auto.
Qed.

Lemma one_inv : forall o h, only_on o h -> sensible h -> OneInv o h.
Proof.
  intros o h. induction h as [|op h IH] using rev_ind; intros Ho Hs.
  - constructor; cbn; auto; try tauto; try discriminate.
    split; [intros []|discriminate].
  - apply only_on_snoc in Ho as [Ho Ho1]. specialize (Ho1 op (or_introl eq_refl)).
    apply sensible_snoc in Hs as [Hs Hs1].
    destruct (IH Ho Hs) as [Srt B H O R U].
    assert (Hu : forall k k' a, In (k, a) (r_cbs (objs (rafter h) o)) -> In (k', a) (r_cbs (objs (rafter h) o)) -> k = k').
    { intros k k' a I J. apply H in I. apply H in J. congruence. }
    destruct op as [c p|c|p|p p']; cbn in Ho1; subst.
    + (* RAdd *)
      assert (Hn : held (rafter h) c = None) by (apply U; auto).
      assert (E : rafter (h ++ [RAdd c o]) =
        Sys (upd (objs (rafter h)) o (fst (add_callbacks c (objs (rafter h) o))))
            (upd (held (rafter h)) c (Some (o, S (r_next (objs (rafter h) o)))))).
      { rewrite rafter_snoc. reflexivity. }
      constructor; rewrite E; cbn [objs held]; rewrite ?upd_same; cbn [add_callbacks fst r_cbs r_next].
      * apply sorted_put; auto.
      * intros k c' I. apply in_put in I; [|auto]. destruct I as [[-> ->]|[_ I]]; [lia|].
        specialize (B _ _ I). lia.
      * intros k c'. rewrite in_put by auto. unfold upd. destruct (Nat.eqb_spec c' c) as [->|N].
        -- split.
           ++ intros [[-> _]|[_ I]]; [auto|]. apply H in I. congruence.
           ++ intros Q. inversion Q. auto.
        -- rewrite <- H. split; [intros [[_ ->]|[_ I]]; [lia|auto]|].
           intros I. right. split; [|auto]. specialize (B _ _ I). lia.
      * intros c' p k. unfold upd. destruct (c' =? c); [congruence|]. apply O.
      * rewrite in_order_snoc. cbn. rewrite <- R. unfold clients. cbn [r_cbs].
        rewrite put_last, map_app; [auto|]. intros k b I. specialize (B _ _ I). lia.
      * intros c'. rewrite uses_snoc. cbn. unfold upd. destruct (c' =? c); [split; discriminate|auto].
    + (* RLeave *)
      destruct (held (rafter h) c) as [[p k]|] eqn:Hc; [|exfalso; apply Hs1; apply U; auto].
      assert (p = o) by eauto. subst.
      assert (E : rafter (h ++ [RLeave c]) =
        Sys (upd (objs (rafter h)) o (remove_callbacks k (objs (rafter h) o)))
            (upd (held (rafter h)) c None)).
      { rewrite rafter_snoc. cbn. rewrite Hc. reflexivity. }
      assert (Ik : In (k, c) (r_cbs (objs (rafter h) o))) by (apply H; auto).
      constructor; rewrite E; cbn [objs held]; rewrite ?upd_same; cbn [remove_callbacks r_cbs r_next].
      * apply sorted_del; auto.
      * intros k' c' I. apply in_del in I; [|auto]. destruct I as [_ I]. eauto.
      * intros k' c'. rewrite in_del by auto. unfold upd. destruct (Nat.eqb_spec c' c) as [->|N].
        -- split; [|discriminate]. intros [N I]. exfalso. apply N. eauto.
        -- rewrite <- H. split; [tauto|]. intros I. split; [|auto].
           intros ->. apply N. eapply sorted_key; eauto.
      * intros c' p k'. unfold upd. destruct (c' =? c); [congruence|]. apply O.
      * rewrite in_order_snoc. cbn. rewrite <- R. unfold clients. cbn [r_cbs].
        apply del_filter; auto.
      * intros c'. rewrite uses_snoc. cbn. unfold upd. destruct (c' =? c); [tauto|auto].
    + (* RNotify *)
      assert (E : rafter (h ++ [RNotify o]) = rafter h) by (rewrite rafter_snoc; reflexivity).
      constructor; rewrite E, ?in_order_snoc, ?uses_snoc; auto.
    + tauto.
Qed.

(** Ids handed out by one object are 1, 2, 3, ... *)
Lemma ids_increase : forall o h s, only_on o h ->
  (forall c p k, held s c = Some (p, k) -> p = o) ->
  ids_from s h = seq (S (r_next (objs s o))) (length (ids_from s h)).
Proof.
  intros o h. induction h as [|op h IH]; intros s Ho Hh; [auto|].
  assert (Ho1 := Ho op (or_introl eq_refl)).
  assert (Ho2 : only_on o h) by (intros x I; apply Ho; right; auto).
  destruct op as [c p|c|p|p p']; cbn in Ho1; subst; cbn [ids_from app]; try tauto.
  - cbn [add_callbacks snd length seq app]. f_equal.
    rewrite IH at 1; [|auto|].
    + cbn. rewrite upd_same. reflexivity.
    + cbn. intros c' p k. unfold upd. destruct (c' =? c); [congruence|]. apply Hh.
  - rewrite IH at 1; [|auto|].
    + cbn. destruct (held s c) as [[p k]|] eqn:E; [|auto]. cbn.
      rewrite (Hh _ _ _ E), upd_same. reflexivity.
    + cbn. destruct (held s c) as [[p k]|] eqn:E; cbn; [|auto].
      intros c' p' k'. unfold upd. destruct (c' =? c); [discriminate|]. apply Hh.
  - apply IH; auto.
Qed.

(** *** Careful histories *)

Record SInv (u : nat -> option nat) (past : list nat) (s : rsys) : Prop := {
  si_sorted : forall o, sorted (r_cbs (objs s o));
  si_uses : forall c o, u c = Some o <-> exists k, held s c = Some (o, k);
  si_held : forall o k c, In (k, c) (r_cbs (objs s o)) <-> held s c = Some (o, k);
  si_bound : forall o, ~ In o past -> forall k c, In (k, c) (r_cbs (objs s o)) -> k <= r_next (objs s o)
}.

Lemma sinv0 : SInv (fun _ => None) [] rsys0.
Proof.
  constructor; cbn; auto; try tauto; try discriminate.
  - intros. split; [discriminate|intros [? ?]; discriminate].
  - intros. split; [intros []|discriminate].
Qed.

Lemma sinv_step : forall u past s op,
  SInv u past s ->
  match op with RAdd c _ => u c = None | RLeave c => u c <> None | _ => True end ->
  match op with
  | RAdd _ o => ~ In o past
  | RReplace o o' => o <> o' /\ forall c, u c <> Some o'
  | _ => True
  end ->
  SInv (uses_step u op)
    (match op with RReplace _ o' => o' :: past | _ => past end) (fst (rstep s op)).
Proof.
  intros u past s op [Srt U H B] Hs Hc.
  assert (Un : forall c, u c = None -> held s c = None).
  { intros c E. destruct (held s c) as [[o k]|] eqn:E'; auto.
    assert (u c = Some o) by (apply U; eauto). congruence. }
  destruct op as [c o|c|o|o o'].
  - cbn [rstep]. unfold add_callbacks. cbn [fst uses_step].
    pose proof (B o Hc) as Bo. specialize (Un c Hs).
    constructor; cbn [objs held].
    + intros p. unfold upd. destruct (p =? o); [|auto]. apply sorted_put; auto.
    + intros c' p. unfold upd. destruct (Nat.eqb_spec c' c) as [->|N].
      * split; [intros Q; inversion Q; eauto|intros [k Q]; inversion Q; auto].
      * apply U.
    + intros p k c'. unfold upd. destruct (Nat.eqb_spec p o) as [->|N]; cbn [r_cbs].
      * rewrite in_put by auto. destruct (Nat.eqb_spec c' c) as [->|N].
        -- split.
           ++ intros [[-> _]|[_ I]]; [auto|]. apply H in I. congruence.
           ++ intros Q. inversion Q. auto.
        -- rewrite <- H. split; [intros [[_ ->]|[_ I]]; [lia|auto]|].
           intros I. right. split; [|auto]. specialize (Bo _ _ I). lia.
      * rewrite H. destruct (Nat.eqb_spec c' c) as [->|N']; [|tauto].
        split; [congruence|]. intros Q. inversion Q. lia.
    + intros p Hp k c'. unfold upd. destruct (Nat.eqb_spec p o) as [->|N]; cbn [r_cbs r_next].
      * rewrite in_put by auto. intros [[-> _]|[_ I]]; [lia|]. specialize (Bo _ _ I). lia.
      * apply B; auto.
  - cbn [rstep]. destruct (held s c) as [[o k]|] eqn:Ec.
    2:{ exfalso. apply Hs. destruct (u c) as [o|] eqn:E; auto. apply U in E as [k E]. congruence. }
    assert (Ik : In (k, c) (r_cbs (objs s o))) by (apply H; auto).
    cbn [fst uses_step].
    constructor; cbn [objs held].
    + intros p. unfold upd. destruct (p =? o); [|auto]. apply sorted_del; auto.
    + intros c' p. unfold upd. destruct (Nat.eqb_spec c' c) as [->|N]; [|apply U].
      split; [discriminate|intros [? ?]; discriminate].
    + intros p k' c'. unfold upd. destruct (Nat.eqb_spec p o) as [->|N]; cbn [r_cbs remove_callbacks].
      * rewrite in_del by auto. destruct (Nat.eqb_spec c' c) as [->|N].
        -- split; [|discriminate]. intros [N I]. apply H in I. exfalso. apply N. congruence.
        -- rewrite H. split; [tauto|]. intros I. split; [|auto]. intros ->. apply N.
           apply H in I. eapply sorted_key; eauto.
      * rewrite H. destruct (Nat.eqb_spec c' c) as [->|N']; [|tauto].
        split; [congruence|discriminate].
    + intros p Hp k' c'. unfold upd. destruct (Nat.eqb_spec p o) as [->|N]; cbn [r_cbs r_next remove_callbacks].
      * rewrite in_del by auto. intros [_ I]. eapply B; eauto.
      * apply B; auto.
  - cbn. constructor; auto.
  - destruct Hc as [Hne Hc].
    assert (Em : r_cbs (objs s o') = []).
    { destruct (r_cbs (objs s o')) as [|[k c] r] eqn:E; auto. exfalso.
      apply (Hc c). apply U. exists k. apply H. rewrite E. left; auto. }
    cbn [rstep fst uses_step].
    assert (Hr : forall c, repoint (clients (objs s o)) o' (held s) c =
                 match held s c with
                 | Some (p, k) => if p =? o then Some (o', k) else Some (p, k)
                 | None => None
                 end).
    { intros c. rewrite repoint_spec.
      destruct (existsb (Nat.eqb c) (clients (objs s o))) eqn:E.
      - apply existsb_in in E. unfold clients in E. apply in_map_iff in E as [[k c0] [Ec I]].
        cbn in Ec; subst. apply H in I. rewrite I, Nat.eqb_refl. auto.
      - destruct (held s c) as [[p k]|] eqn:Eh; [|auto].
        destruct (Nat.eqb_spec p o) as [->|N]; [|auto]. apply H in Eh. exfalso.
        assert (existsb (Nat.eqb c) (clients (objs s o)) = true); [|congruence].
        apply existsb_in. unfold clients. apply in_map_iff. exists (k, c). auto. }
    assert (Ho : upd (upd (objs s) o' (take_over (objs s o) (objs s o'))) o
                   (dismiss (upd (objs s) o' (take_over (objs s o) (objs s o')) o)) =
                 upd (upd (objs s) o' (take_over (objs s o) (objs s o'))) o (dismiss (objs s o))).
    { rewrite (upd_other _ _ _ _ o) by auto. reflexivity. }
    rewrite Ho. clear Ho.
    constructor; cbn [objs held].
    + intros p. unfold upd. destruct (p =? o); [cbn; auto|]. destruct (p =? o'); cbn; auto.
    + intros c p. rewrite Hr. destruct (u c) as [q|] eqn:E.
      * apply U in E as [k E]. rewrite E. destruct (Nat.eqb_spec q o).
        -- split; [intros Q; inversion Q; eauto|intros [? Q]; inversion Q; auto].
        -- split; [intros Q; inversion Q; eauto|intros [? Q]; inversion Q; auto].
      * rewrite (Un _ E). split; [discriminate|intros [? ?]; discriminate].
    + intros p k c. rewrite Hr. unfold upd. destruct (Nat.eqb_spec p o) as [->|N]; [|destruct (Nat.eqb_spec p o') as [->|N']].
      * cbn. split; [intros []|]. destruct (held s c) as [[p k']|]; [|discriminate].
        destruct (Nat.eqb_spec p o); congruence.
      * cbn [take_over r_cbs]. rewrite H. destruct (held s c) as [[p k']|] eqn:E; [|split; discriminate].
        destruct (Nat.eqb_spec p o) as [->|N'].
        -- split; intros Q; inversion Q; auto.
        -- split; intros Q; inversion Q; [congruence|]. subst. exfalso. apply (Hc c). apply U. eauto.
      * rewrite H. destruct (held s c) as [[q k']|] eqn:E; [|tauto].
        destruct (Nat.eqb_spec q o) as [->|N'']; [|tauto].
        split; intros Q; inversion Q; congruence.
    + intros p Hp k c. cbn in Hp. unfold upd. destruct (Nat.eqb_spec p o) as [->|N]; [cbn; tauto|].
      destruct (Nat.eqb_spec p o') as [->|N']; [tauto|]. apply B. tauto.
Qed.

Lemma sinv_run : forall h u past s,
  SInv u past s -> sensible_from u h -> careful_from u past h ->
  exists past', SInv (fold_left uses_step h u) past' (fst (rrun s h)).
Proof.
  induction h as [|op h IH]; intros u past s Hi Hs Hc; cbn.
  - eauto.
  - destruct Hs as [Hs1 Hs]. destruct Hc as [Hc1 Hc].
    pose proof (sinv_step _ _ _ _ Hi Hs1 Hc1) as Hi'.
    specialize (IH _ _ _ Hi' Hs Hc). destruct IH as [past' IH].
    destruct (rstep s op) as [s' ev]. cbn in *. destruct (rrun s' h). eauto.
Qed.

Lemma careful_inv : forall h, sensible h -> careful h -> exists past, SInv (uses h) past (rafter h).
Proof. intros h Hs Hc. exact (sinv_run h _ _ _ sinv0 Hs Hc). Qed.

Lemma sinv_clients : forall u past s o, SInv u past s ->
  NoDup (clients (objs s o)) /\ forall c, In c (clients (objs s o)) <-> u c = Some o.
Proof.
  intros u past s o [Srt U H B]. split.
  - apply values_nodup; [auto|]. intros k k' c I J. apply H in I. apply H in J. congruence.
  - intros c. rewrite U. unfold clients. rewrite in_map_iff. split.
    + intros [[k c'] [E I]]. cbn in E; subst. exists k. apply H; auto.
    + intros [k E]. exists (k, c). split; [auto|]. apply H; auto.
Qed.

(** *** Chains of replacements (any history) *)

Lemma replace_moves : forall h o o', o <> o' ->
  let s := rafter h in
  let s' := rafter (h ++ [RReplace o o']) in
  snd (rstep s (RReplace o o')) = map (fun c => Replaced c o') (clients (objs s o)) /\
  clients (objs s' o') = clients (objs s o) /\
  clients (objs s' o) = [] /\
  forall p, p <> o -> p <> o' -> objs s' p = objs s p.
Proof.
  intros h o o' N s s'. unfold s', s. rewrite rafter_snoc. cbn [rstep fst snd objs].
  split; [auto|]. repeat split.
  - rewrite upd_other by auto. rewrite upd_same. reflexivity.
  - rewrite upd_same. reflexivity.
  - intros p N1 N2. rewrite !upd_other by auto. reflexivity.
Qed.

Lemma last_cons : forall (l : list nat) a d, last (a :: l) d = last l a.
Proof.
  induction l as [|b l IH]; intros a d; [auto|].
  change (last (a :: b :: l) d) with (last (b :: l) d). rewrite !IH. auto.
Qed.

Lemma last_in : forall (l : list nat) a, In (last l a) (a :: l).
Proof.
  induction l as [|b l IH]; intros a; [cbn; auto|].
  rewrite last_cons. right. apply IH.
Qed.

Lemma chain_moves : forall os h o, NoDup (o :: os) ->
  let L := clients (objs (rafter h) o) in
  (forall h1 p q h2, chain o os = h1 ++ RReplace p q :: h2 ->
     snd (rstep (rafter (h ++ h1)) (RReplace p q)) = map (fun c => Replaced c q) L) /\
  clients (objs (rafter (h ++ chain o os)) (last os o)) = L /\
  (forall p, In p (o :: os) -> p <> last os o ->
     clients (objs (rafter (h ++ chain o os)) p) = []) /\
  (forall p, ~ In p (o :: os) -> objs (rafter (h ++ chain o os)) p = objs (rafter h) p).
Proof.
  induction os as [|o' r IH]; intros h o Hd L; cbn [chain].
  - rewrite app_nil_r. cbn [last]. repeat split; auto.
    + intros [|? ?] ? ? ? E; discriminate E.
    + intros p [->|[]]; tauto.
  - inversion Hd as [|? ? Hn Hd']; subst.
    assert (No : o <> o') by (intros ->; apply Hn; left; auto).
    destruct (replace_moves h o o' No) as (Hl & H1 & H2 & H3).
    specialize (IH (h ++ [RReplace o o']) o' Hd'). cbn zeta in IH.
    rewrite <- app_assoc in IH. cbn [app] in IH.
    rewrite H1 in IH. fold L in IH, Hl. destruct IH as (I1 & I2 & I3 & I4).
    rewrite (last_cons r o' o).
    pose proof (last_in r o') as Hlin.
    repeat split.
    + intros [|x h1] p q h2 E; cbn [app] in E.
      * inversion E; subst. rewrite app_nil_r. exact Hl.
      * inversion E as [[E1 E2]]. specialize (I1 _ _ _ _ E2).
        rewrite <- app_assoc in I1. exact I1.
    + exact I2.
    + intros p [->|Ip] Np.
      * rewrite I4; [exact H2|auto].
      * apply I3; auto.
    + intros p Np. rewrite I4; [|intros Q; apply Np; right; auto].
      apply H3; intros ->; apply Np; cbn; auto.
Qed.
