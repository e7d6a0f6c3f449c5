(** Proofs about the dictionaries of definitions. *)
From Coq Require Import List Arith Bool Lia.
From Verif Require Import Names Names_spec.
Import ListNotations.

Lemma class_eqb_eq : forall a b, class_eqb a b = true <-> a = b.
Proof. intros [] []; cbn; split; congruence. Qed.

Lemma class_eqb_refl : forall a, class_eqb a a = true.
Proof. intros []; reflexivity. Qed.

Lemma key_eqb_eq : forall a b, key_eqb a b = true <-> a = b.
Proof.
  intros [m|] [n|]; cbn; split; try congruence.
  - intros H. apply Nat.eqb_eq in H. congruence.
  - intros [= ->]. apply Nat.eqb_refl.
Qed.

Lemma get_put : forall d k v k', get (put d k v) k' = if key_eqb k k' then Some v else get d k'.
Proof.
  induction d as [|[a b] d IH]; intros k v k'; cbn; [reflexivity|].
  destruct (key_eqb a k) eqn:E; cbn.
  - apply key_eqb_eq in E. subst a. destruct (key_eqb k k') eqn:E'; reflexivity.
  - rewrite IH. destruct (key_eqb a k') eqn:E'; [|reflexivity].
    apply key_eqb_eq in E'. subst a. destruct (key_eqb k k') eqn:E2; [|reflexivity].
    apply key_eqb_eq in E2. subst k. rewrite (proj2 (key_eqb_eq k' k') eq_refl) in E. discriminate.
Qed.

Lemma get_store : forall s c id w c' id',
  get (defs (store s c id w) c') id' = if class_eqb c' c then (if key_eqb id id' then Some w else get (defs s c) id') else get (defs s c') id'.
Proof.
  intros. cbn. destruct (class_eqb c' c) eqn:E; [apply get_put|reflexivity].
Qed.

Lemma get_in : forall d k v, get d k = Some v -> In (k, v) d.
Proof.
  induction d as [|[a b] d IH]; cbn; intros k v; [discriminate|].
  destruct (key_eqb a k) eqn:E; [|auto]. apply key_eqb_eq in E. intros [= ->]. subst. auto.
Qed.

Lemma in_put : forall d k v k' v', In (k', v') (put d k v) -> k' = k /\ v' = v \/ In (k', v') d.
Proof.
  induction d as [|[a b] d IH]; cbn; intros k v k' v'.
  - intros [[= <- <-]|[]]. auto.
  - destruct (key_eqb a k) eqn:E.
    + apply key_eqb_eq in E. subst a. cbn. intros [[= <- <-]|H]; auto.
    + cbn. intros [[= <- <-]|H]; auto. destruct (IH _ _ _ _ H) as [|]; auto.
Qed.

Lemma keys_put : forall d k v, NoDup (map fst d) -> NoDup (map fst (put d k v)).
Proof.
  induction d as [|[a b] d IH]; cbn; intros k v H.
  - constructor; [auto|constructor].
  - destruct (key_eqb a k) eqn:E; cbn; [exact H|].
    inversion H as [|? ? Ha Hd]. subst. constructor; [|auto].
    intros I. apply in_map_iff in I. destruct I as ([a' b'] & E1 & I). cbn in E1. subst a'.
    apply in_put in I. destruct I as [[-> _]|I].
    + rewrite (proj2 (key_eqb_eq k k) eq_refl) in E. discriminate.
    + apply Ha, in_map_iff. exists (a, b'). auto.
Qed.

Lemma in_get : forall d k v, NoDup (map fst d) -> In (k, v) d -> get d k = Some v.
Proof.
  induction d as [|[a b] d IH]; cbn; intros k v H; [tauto|].
  inversion H as [|? ? Ha Hd]. subst. intros [[= <- <-]|I].
  - rewrite (proj2 (key_eqb_eq a a) eq_refl). reflexivity.
  - destruct (key_eqb a k) eqn:E; [|auto]. apply key_eqb_eq in E. subst a.
    exfalso. apply Ha, in_map_iff. exists (k, v). auto.
Qed.

(** ** What holds in every state *)

Record good (s : state) : Prop := Good {
  g_keys : forall c, NoDup (map fst (defs s c));
  g_old : forall c k w, In (k, w) (defs s c) -> w < wrappers s;
  g_func : forall w f, func s w = Some f -> w < wrappers s /\ f < library s;
  g_one : forall w w' f, func s w = Some f -> func s w' = Some f -> w = w'
}.

Lemma good_initial : good initial.
Proof. constructor; cbn; intros; try tauto; try discriminate. constructor. Qed.

Definition made (s : state) (f : option nat) : state :=
  St (defs s) (fun w' => if w' =? wrappers s then f else func s w') (S (wrappers s))
     (match f with Some _ => S (library s) | None => library s end) (handed s).

Lemma good_made : forall s f, good s -> (f = None \/ f = Some (library s)) -> good (made s f).
Proof.
  intros s f G F. constructor; cbn.
  - apply G.
  - intros c k w I. pose proof (g_old _ G _ _ _ I). lia.
  - intros w g. destruct (w =? wrappers s) eqn:E.
    + apply Nat.eqb_eq in E. intros ->. destruct F as [F|F]; inversion F. lia.
    + intros H. destruct (g_func _ G _ _ H). destruct f; lia.
  - intros w w' g. destruct (w =? wrappers s) eqn:E; destruct (w' =? wrappers s) eqn:E'.
    + apply Nat.eqb_eq in E, E'. congruence.
    + intros -> H. destruct (g_func _ G _ _ H). destruct F as [F|F]; inversion F. lia.
    + intros H ->. destruct (g_func _ G _ _ H). destruct F as [F|F]; inversion F. lia.
    + apply (g_one _ G).
Qed.

Lemma good_store : forall s c id w, good s -> w < wrappers s -> good (store s c id w).
Proof.
  intros s c id w G W. constructor; cbn.
  - intros c'. destruct (class_eqb c' c); [apply keys_put|]; apply G.
  - intros c' k w'. destruct (class_eqb c' c).
    + intros I. apply in_put in I. destruct I as [[_ ->]|I]; [exact W|exact (g_old _ G _ _ _ I)].
    + apply G.
  - apply G.
  - apply (g_one _ G).
Qed.

Lemma good_handed : forall s h, good s -> good (St (defs s) (func s) (wrappers s) (library s) h).
Proof. intros s h [G1 G2 G3 G4]. constructor; auto. Qed.

(** The three ways of [register]. *)
Lemma register_cases : forall s c id f, good s -> (f = None \/ f = Some (library s)) ->
  (exists q, good q /\ func q = func (made s f) /\ wrappers q = S (wrappers s) /\
     handed q = handed s ++ (match id with
                             | Some _ => if replaces c then
                                 match lookup s c id with
                                 | Some old => match func s old, f with Some o, Some n => [(o, n)] | _, _ => [] end
                                 | None => [] end else []
                             | None => [] end) /\
     register s c id f = (Fine, q) /\
     (forall c' id', lookup q c' id' =
        if same (c', id') (c, id) then (if same (c, id) (c, None) then match c with KEdp => Some (wrappers s) | _ => lookup s c id end
                                        else Some (wrappers s))
        else lookup s c' id') /\
     (id <> None -> replaces c = true -> forall old, lookup s c id = Some old -> func s old <> None /\ f <> None)) \/
  (replaces c = true /\ id <> None /\ exists old, lookup s c id = Some old /\
     (func s old = None /\ register s c id f = (Raised, made s f) \/
      func s old <> None /\ f = None /\ register s c id f = (Ended, made s f))).
Proof.
  intros s c id f G F. pose proof (good_made s f G F) as Gm.
  assert (Look : forall q, (forall c', defs q c' = defs (made s f) c') -> forall c' id', id <> None ->
    lookup (store q c id (wrappers s)) c' id' =
      if same (c', id') (c, id) then (if same (c, id) (c, None) then match c with KEdp => Some (wrappers s) | _ => lookup s c id end
                                        else Some (wrappers s))
      else lookup s c' id').
  { intros q Q c' id' N. unfold lookup. rewrite get_store, !Q.
    destruct (same (c', id') (c, id)) as [E|E].
    - injection E as -> ->. rewrite class_eqb_refl, (proj2 (key_eqb_eq id id) eq_refl).
      destruct (same (c, id) (c, None)) as [E|_]; [congruence|reflexivity].
    - destruct (class_eqb c' c) eqn:Ec; [|reflexivity]. apply class_eqb_eq in Ec. subst c'.
      destruct (key_eqb id id') eqn:Ek; [|reflexivity]. apply key_eqb_eq in Ek. congruence. }
  destruct id as [n|].
  - unfold register. fold (made s f). destruct (replaces c) eqn:R.
    + destruct (get (defs s c) (Some n)) as [old|] eqn:E; fold (lookup s c (Some n)) in E.
      * destruct (func s old) as [o|] eqn:Ef.
        -- destruct f as [f|].
           ++ left. eexists. split; [|split; [|split; [|split; [|split; [reflexivity|split; [|]]]]]].
              ** apply good_store; [apply good_handed; exact Gm|cbn; lia].
              ** reflexivity.
              ** reflexivity.
              ** rewrite E, Ef. reflexivity.
              ** intros c' id'. apply Look; [reflexivity|discriminate].
              ** intros _ _ old'. rewrite E. intros [= <-]. rewrite Ef. split; discriminate.
           ++ right. split; [reflexivity|]. split; [discriminate|]. exists old. split; [exact E|].
              right. rewrite Ef. split; [discriminate|]. auto.
        -- right. split; [reflexivity|]. split; [discriminate|]. exists old. split; [exact E|].
           left. auto.
      * left. eexists. split; [|split; [|split; [|split; [|split; [reflexivity|split; [|]]]]]].
        -- apply good_store; [exact Gm|cbn; lia].
        -- reflexivity.
        -- reflexivity.
        -- rewrite E. symmetry. apply app_nil_r.
        -- intros c' id'. apply Look; [reflexivity|discriminate].
        -- intros _ _ old'. rewrite E. discriminate.
    + left. eexists. split; [|split; [|split; [|split; [|split; [reflexivity|split; [|]]]]]].
      * apply good_store; [exact Gm|cbn; lia].
      * reflexivity.
      * reflexivity.
      * cbn. symmetry. apply app_nil_r.
      * intros c' id'. apply Look; [reflexivity|discriminate].
      * discriminate.
  - left. unfold register. fold (made s f).
    exists (match c with KEdp => store (made s f) c None (wrappers s) | _ => made s f end).
    split; [destruct c; try exact Gm; apply good_store; [exact Gm|cbn; lia]|].
    split; [destruct c; reflexivity|]. split; [destruct c; reflexivity|].
    split; [rewrite app_nil_r; destruct c; reflexivity|]. split; [destruct c; reflexivity|].
    split; [|congruence]. intros c' id'. destruct (same (c, None) (c, None)) as [_|N]; [|congruence].
    destruct (same (c', id') (c, None)) as [E|E].
    + injection E as -> ->. destruct c; try reflexivity. unfold lookup. rewrite get_store. reflexivity.
    + destruct c; try reflexivity. unfold lookup. rewrite get_store. cbn [defs made].
      destruct (class_eqb c' KEdp) eqn:Ec; [|reflexivity]. apply class_eqb_eq in Ec. subst c'.
      destruct (key_eqb None id') eqn:Ek; [|reflexivity]. apply key_eqb_eq in Ek. congruence.
Qed.

Lemma lookup_made : forall s f c id, lookup (made s f) c id = lookup s c id.
Proof. reflexivity. Qed.

(** One call. *)
Lemma step_ok : forall s o, good s ->
  let a := fst (step s o) in let s' := snd (step s o) in
  good s' /\ wrappers s' = match defines o with Some _ => S (wrappers s) | None => wrappers s end /\
  (forall c n, lookup s' c (Some n) =
     match o, a, defines o with
     | Clear, _, _ => None
     | _, Fine, Some k' => if same (c, Some n) k' then Some (wrappers s) else lookup s c (Some n)
     | _, _, _ => lookup s c (Some n)
     end).
Proof.
  intros s o G.
  assert (Reg : forall c id f, (f = None \/ f = Some (library s)) -> let a := fst (register s c id f) in
    let s' := snd (register s c id f) in
    good s' /\ wrappers s' = S (wrappers s) /\
    forall c' n, lookup s' c' (Some n) =
      match a with Fine => if same (c', Some n) (c, id) then Some (wrappers s) else lookup s c' (Some n)
                 | _ => lookup s c' (Some n) end).
  { intros c id f F. destruct (register_cases s c id f G F) as [(q & Gq & _ & W & _ & E & L & _)|(_ & _ & old & _ & [(_ & E)|(_ & _ & E)])];
      rewrite E; cbn [fst snd].
    - split; [exact Gq|]. split; [exact W|]. intros c' n. rewrite L. destruct (same (c', Some n) (c, id)) as [X|X]; [|reflexivity].
      destruct (same (c, id) (c, None)) as [Y|Y]; [|reflexivity]. congruence.
    - split; [apply good_made; auto|]. split; [reflexivity|]. reflexivity.
    - split; [apply good_made; auto|]. split; [reflexivity|]. reflexivity. }
  destruct o as [c id []| [|] id|]; cbn [step defines].
  - apply Reg. auto.
  - split; [exact G|split; [reflexivity|reflexivity]].
  - split; [exact G|split; [reflexivity|reflexivity]].
  - apply Reg. auto.
  - apply Reg. auto.
  - cbn. split; [|split; [reflexivity|]].
    + constructor; cbn; intros; try tauto; try constructor; try apply (g_func _ G w f H); apply (g_one _ G w w' f H H0).
    + reflexivity.
Qed.

Lemma run_latest : forall l s c n, good s ->
  lookup (snd (run s l)) c (Some n) =
  latest (c, Some n) (combine l (fst (run s l))) (wrappers s) (lookup s c (Some n)).
Proof.
  induction l as [|o l IH]; intros s c n G; [reflexivity|].
  cbn [run]. pose proof (step_ok s o G) as H. destruct (step s o) as [a s'] eqn:E. cbn [fst snd] in H.
  destruct H as (G' & W & L). specialize (IH s' c n G'). specialize (L c n).
  destruct a.
  1,2: destruct (run s' l) as [q s''] eqn:R; cbn [fst snd combine latest] in *; rewrite IH, W, L; reflexivity.
  cbn [fst snd combine latest]. rewrite combine_nil || idtac. rewrite L. destruct l; reflexivity.
Qed.

Lemma latest_found : forall l c n, lookup (after l) c (Some n) = latest (c, Some n) (trace l) 0 None.
Proof. intros l c n. exact (run_latest l initial c n good_initial). Qed.

Lemma run_good : forall l s, good s -> good (snd (run s l)).
Proof.
  induction l as [|o l IH]; intros s G; [exact G|].
  cbn [run]. pose proof (step_ok s o G) as (G' & _). destruct (step s o) as [[] s'] eqn:E; cbn [snd] in G' |- *.
  - specialize (IH s' G'). destruct (run s' l). exact IH.
  - specialize (IH s' G'). destruct (run s' l). exact IH.
  - exact G'.
Qed.

Lemma after_good : forall l, good (after l).
Proof. intros l. apply run_good, good_initial. Qed.

(** ** Failure *)
Lemma search_ext : forall F F' d f, (forall k w, In (k, w) d -> F w = F' w) -> search F d f = search F' d f.
Proof.
  induction d as [|[k w] d IH]; intros f H; [reflexivity|]. cbn.
  rewrite (H k w (or_introl eq_refl)), (IH f); [reflexivity|]. intros k' w' I. apply (H k' w'). right. exact I.
Qed.

Lemma search_made : forall s g c f, good s -> search (func (made s g)) (defs s c) f = search (func s) (defs s c) f.
Proof.
  intros s g c f G. apply search_ext. intros k w I. cbn. pose proof (g_old _ G _ _ _ I).
  destruct (w =? wrappers s) eqn:E; [apply Nat.eqb_eq in E; lia|reflexivity].
Qed.

Lemma not_fine : forall l o, fst (step (after l) o) <> Fine ->
  let s := after l in let s' := snd (step s o) in
  (forall c id, lookup s' c id = lookup s c id) /\ (forall c f, lookup_object s' c f = lookup_object s c f) /\
  (forall c id w f, wraps s c id w f -> wraps s' c id w f) /\ handed s' = handed s.
Proof.
  intros l o. pose proof (after_good l) as G. generalize dependent (after l). intros s G.
  assert (Reg : forall c id f, (f = None \/ f = Some (library s)) -> fst (register s c id f) <> Fine ->
    snd (register s c id f) = made s f).
  { intros c id f F N. destruct (register_cases s c id f G F) as [(q & _ & _ & _ & _ & E & _)|(_ & _ & old & _ & [(_ & E)|(_ & _ & E)])];
      rewrite E in *; cbn in *; [congruence|reflexivity|reflexivity]. }
  assert (Made : forall f, let s' := made s f in
    (forall c id, lookup s' c id = lookup s c id) /\ (forall c f, lookup_object s' c f = lookup_object s c f) /\
    (forall c id w f, wraps s c id w f -> wraps s' c id w f) /\ handed s' = handed s).
  { intros f. split; [reflexivity|]. split; [intros c g; exact (search_made s f c g G)|]. split; [|reflexivity].
    intros c id w g [L F]. split; [exact L|]. cbn. destruct (g_func _ G _ _ F).
    destruct (w =? wrappers s) eqn:E; [apply Nat.eqb_eq in E; lia|exact F]. }
  destruct o as [c id []| [|] id|]; cbn [step]; intros N.
  - rewrite (Reg c id (Some (library s)) (or_intror eq_refl) N). apply Made.
  - cbn. auto.
  - cbn. auto.
  - rewrite (Reg KFrag id None (or_introl eq_refl) N). apply Made.
  - rewrite (Reg KLoss id None (or_introl eq_refl) N). apply Made.
  - cbn in N. congruence.
Qed.

(** ** Success *)
Lemma fine : forall l c n, let s := after l in let s' := snd (step s (New c (Some n) Makes)) in
  fst (step s (New c (Some n) Makes)) = Fine ->
  exists w f, wraps s' c (Some n) w f /\
    (forall c' id' w' f', wraps s c' id' w' f' -> w' <> w /\ f' <> f) /\
    exists h, handed s' = handed s ++ h /\
      hands c (match lookup s c (Some n) with Some old => func s old | None => None end) f h.
Proof.
  intros l c n. pose proof (after_good l) as G. generalize dependent (after l). intros s G. cbn [step].
  destruct (register_cases s c (Some n) (Some (library s)) G (or_intror eq_refl)) as
    [(q & Gq & F & W & H & E & L & Z)|(_ & _ & old & _ & [(_ & E)|(_ & _ & E)])]; rewrite E; cbn [fst snd]; [|discriminate|discriminate].
  intros _. exists (wrappers s), (library s). split; [|split].
  - split.
    + rewrite L. destruct (same (c, Some n) (c, Some n)); [|congruence]. destruct (same (c, Some n) (c, None)); [congruence|reflexivity].
    + rewrite F. cbn. rewrite Nat.eqb_refl. reflexivity.
  - intros c' id' w' f' [_ F']. destruct (g_func _ G _ _ F'). lia.
  - rewrite H. eexists. split; [reflexivity|]. unfold hands, succeeds. destruct (lookup s c (Some n)) as [old|]; [|destruct c; reflexivity].
    destruct (func s old) as [o|]; [|destruct c; reflexivity].
    destruct c; cbn; split; intros K; try reflexivity; exfalso;
      ((apply K; tauto) || (repeat (destruct K as [K|K]; [discriminate|]); exact K)).
Qed.

(** ** Nameless definitions *)
Lemma run_nameless : forall l s c, c <> KEdp -> good s -> lookup s c None = None -> lookup (snd (run s l)) c None = None.
Proof.
  induction l as [|o l IH]; intros s c N G H; [exact H|].
  assert (H' : lookup (snd (step s o)) c None = None).
  { assert (Reg : forall c' id f, (f = None \/ f = Some (library s)) -> lookup (snd (register s c' id f)) c None = None).
    { intros c' id f F. destruct (register_cases s c' id f G F) as [(q & _ & _ & _ & _ & E & L & _)|(_ & _ & old & _ & [(_ & E)|(_ & _ & E)])];
        rewrite E; cbn [snd]; try exact H. rewrite L. destruct (same (c, None) (c', id)) as [X|X]; [|exact H].
      injection X as <- <-. destruct (same (c, None) (c, None)); [|congruence]. destruct c; try exact H. congruence. }
    destruct o as [c' id []| [|] id|]; cbn [step]; try exact H; try (apply Reg; auto). reflexivity. }
  cbn [run]. pose proof (step_ok s o G) as (G' & _). destruct (step s o) as [[] s'] eqn:E; cbn [snd] in *.
  - specialize (IH s' c N G' H'). destruct (run s' l). exact IH.
  - specialize (IH s' c N G' H'). destruct (run s' l). exact IH.
  - exact H'.
Qed.

Lemma nameless_hidden : forall l c, c <> KEdp -> lookup (after l) c None = None.
Proof. intros l c N. exact (run_nameless l initial c N good_initial eq_refl). Qed.

Lemma refute_nameless : exists l w, lookup (after l) KEdp None = Some w.
Proof. exists [New KEdp None Makes], 0. reflexivity. Qed.

(** ** Without placeholders *)
Definition full (s : state) : Prop := forall c k w, In (k, w) (defs s c) -> func s w <> None.

Lemma step_full : forall s o, good s -> full s -> (forall b id, o <> Empty b id) -> full (snd (step s o)) /\
  fst (step s o) = match o with New _ _ Refuses => Raised | New _ _ Kills => Ended | _ => Fine end.
Proof.
  intros s o G Fu N.
  destruct o as [c id []| b id|]; cbn [step]; try (split; [exact Fu|reflexivity]); [|exfalso; exact (N b id eq_refl)|split; [|reflexivity]].
  - destruct (register_cases s c id (Some (library s)) G (or_intror eq_refl)) as
      [(q & Gq & F & W & H & E & L & Z)|(_ & _ & old & Lo & [(Fo & E)|(_ & Fn & E)])]; rewrite E; cbn [fst snd].
    + split; [|reflexivity]. intros c' k w I. pose proof (in_get _ _ _ (g_keys _ Gq c') I) as Gt.
      fold (lookup q c' k) in Gt. rewrite L in Gt. rewrite F. cbn.
      assert (Old : forall c k w, lookup s c k = Some w -> (if w =? wrappers s then Some (library s) else func s w) <> None).
      { intros c1 k1 w1 L1. pose proof (Fu c1 k1 w1 (get_in _ _ _ L1)). destruct (w1 =? wrappers s); [discriminate|assumption]. }
      assert (Now : (if wrappers s =? wrappers s then Some (library s) else func s (wrappers s)) <> None).
      { rewrite Nat.eqb_refl. discriminate. }
      destruct (same (c', k) (c, id)) as [X|X]; [|exact (Old _ _ _ Gt)].
      destruct (same (c, id) (c, None)) as [Y|Y].
      * destruct c; try exact (Old _ _ _ Gt); injection Gt as <-; exact Now.
      * injection Gt as <-. exact Now.
    + exfalso. exact (Fu _ _ _ (get_in _ _ _ Lo) Fo).
    + discriminate Fn.
  - intros c k w [].
Qed.

Lemma run_full : forall l s, good s -> full s -> (forall b id, ~ In (Empty b id) l) -> full (snd (run s l)) /\
  ((forall c id, ~ In (New c id Kills) l) ->
   fst (run s l) = map (fun o => match o with New _ _ Refuses => Raised | _ => Fine end) l).
Proof.
  induction l as [|o l IH]; intros s G Fu N; [split; [exact Fu|reflexivity]|].
  cbn [run]. pose proof (step_ok s o G) as (G' & _).
  destruct (step_full s o G Fu) as [Fu' A]. { intros b id ->. apply (N b id). left. reflexivity. }
  destruct (step s o) as [a s'] eqn:E. cbn [fst snd] in *.
  assert (N' : forall b id, ~ In (Empty b id) l). { intros b id I. apply (N b id). right. exact I. }
  destruct (IH s' G' Fu' N') as [I1 I2].
  assert (K' : (forall c id, ~ In (New c id Kills) (o :: l)) -> forall c id, ~ In (New c id Kills) l).
  { intros K c id I. apply (K c id). right. exact I. }
  destruct o as [c id []| b id|]; cbn [map]; try (exfalso; apply (N b id); left; reflexivity); subst a;
    try (destruct (run s' l) as [q s'']; cbn [fst snd] in *; split; [exact I1|]; intros K; f_equal; apply I2, K', K).
  split; [exact Fu'|]. intros K. exfalso. apply (K c id). left. reflexivity.
Qed.

Lemma full_initial : full initial.
Proof. intros c k w []. Qed.

Lemma answers : forall l, solid l -> survivable l ->
  fst (run initial l) = map (fun o => match o with New _ _ Refuses => Raised | _ => Fine end) l.
Proof. intros l S K. exact (proj2 (run_full l initial good_initial full_initial S) K). Qed.

(** ** Lookups of library objects *)
Lemma search_found : forall F d f, (forall k w, In (k, w) d -> F w <> None) -> 
  match search F d f with
  | Found w => F w = Some f /\ exists k, In (k, w) d
  | Nothing => forall k w, In (k, w) d -> F w <> Some f
  | Fails => False
  end.
Proof.
  induction d as [|[k w] d IH]; intros f H; cbn; [tauto|].
  destruct (F w) as [g|] eqn:E; [|exact (H k w (or_introl eq_refl) E)].
  destruct (g =? f) eqn:Eg.
  - apply Nat.eqb_eq in Eg. subst g. split; [exact E|]. exists k. left. reflexivity.
  - assert (H' : forall k w, In (k, w) d -> F w <> None). { intros k' w' I. apply (H k' w'). right. exact I. }
    specialize (IH f H'). destruct (search F d f) as [w'| |].
    + destruct IH as [A [k' B]]. split; [exact A|]. exists k'. right. exact B.
    + intros k' w' [[= <- <-]|I]; [|exact (IH k' w' I)]. rewrite E. intros [= ->]. rewrite Nat.eqb_refl in Eg. discriminate.
    + exact IH.
Qed.

Lemma object_found : forall l c f, solid l ->
  match lookup_object (after l) c f with
  | Found w => exists id, wraps (after l) c id w f
  | Nothing => forall id w, ~ wraps (after l) c id w f
  | Fails => False
  end.
Proof.
  intros l c f S. pose proof (after_good l) as G.
  assert (Fu : full (after l)) by exact (proj1 (run_full l initial good_initial full_initial S)).
  unfold lookup_object. pose proof (search_found (func (after l)) (defs (after l) c) f (Fu c)) as H.
  destruct (search (func (after l)) (defs (after l) c) f) as [w| |].
  - destruct H as [A [k B]]. exists k. split; [exact (in_get _ _ _ (g_keys _ G c) B)|exact A].
  - intros id w [A B]. exact (H id w (get_in _ _ _ A) B).
  - exact H.
Qed.

Lemma one_object : forall l c id w c' id' w' f,
  wraps (after l) c id w f -> wraps (after l) c' id' w' f -> w = w'.
Proof. intros l c id w c' id' w' f [_ A] [_ B]. exact (g_one _ (after_good l) _ _ _ A B). Qed.

Lemma refute_object : exists l n w f, wraps (after l) KFrag (Some n) w f /\ lookup_object (after l) KFrag f = Fails.
Proof. exists [Empty true (Some 0); New KFrag (Some 1) Makes], 1, 1, 0. repeat split. Qed.

Lemma refute_ends : exists l, survivable l /\ In Ended (fst (run initial l)).
Proof.
  exists [New KFrag (Some 0) Makes; Empty true (Some 0)]. split.
  - intros c id [[=]|[[=]|[]]].
  - cbn. auto.
Qed.

(** ** Placeholders stay *)
Definition blocked (s : state) (c : class) (n : nat) : Prop :=
  exists w, lookup s c (Some n) = Some w /\ func s w = None.

Lemma step_blocked : forall s o c n, good s -> replaces c = true -> blocked s c n -> o <> Clear ->
  blocked (snd (step s o)) c n /\
  (match o with New c' id _ => (c', id) | Empty b id => (if b then KFrag else KLoss, id) | Clear => (KDet, None) end = (c, Some n) ->
   fst (step s o) <> Fine).
Proof.
  intros s o c n G R (w & L & F) N.
  assert (W : w < wrappers s) by exact (g_old _ G _ _ _ (get_in _ _ _ L)).
  assert (Fm : forall f, func (made s f) w = None).
  { intros f. cbn. destruct (w =? wrappers s) eqn:E; [apply Nat.eqb_eq in E; lia|exact F]. }
  assert (Reg : forall c' id f, (f = None \/ f = Some (library s)) ->
    blocked (snd (register s c' id f)) c n /\ ((c', id) = (c, Some n) -> fst (register s c' id f) <> Fine)).
  { intros c' id f Ff. destruct (register_cases s c' id f G Ff) as
      [(q & Gq & Fq & _ & _ & E & Lq & Z)|(_ & _ & old & _ & [(_ & E)|(_ & _ & E)])]; rewrite E; cbn [fst snd].
    - assert (D : (c', id) <> (c, Some n)).
      { intros [= -> ->]. destruct (Z ltac:(discriminate) R w L) as [Z1 _]. exact (Z1 F). }
      split; [|intros X; contradiction]. exists w. split.
      + rewrite Lq. destruct (same (c, Some n) (c', id)) as [X|X]; [congruence|exact L].
      + rewrite Fq. apply Fm.
    - split; [exists w; split; [exact L|apply Fm]|]. discriminate.
    - split; [exists w; split; [exact L|apply Fm]|]. discriminate. }
  destruct o as [c' id []| [|] id|]; cbn [step]; try (apply Reg; auto); try congruence.
  - split; [exists w; auto|discriminate].
  - split; [exists w; auto|discriminate].
Qed.

Lemma run_blocked : forall l s c n, good s -> replaces c = true -> blocked s c n -> ~ In Clear l ->
  blocked (snd (run s l)) c n.
Proof.
  induction l as [|o l IH]; intros s c n G R B N; [exact B|].
  cbn [run]. pose proof (step_ok s o G) as (G' & _).
  destruct (step_blocked s o c n G R B) as [B' _]. { intros ->. apply N. left. reflexivity. }
  assert (N' : ~ In Clear l) by (intros I; apply N; right; exact I).
  destruct (step s o) as [[] s'] eqn:E; cbn [fst snd] in *.
  - specialize (IH s' c n G' R B' N'). destruct (run s' l). exact IH.
  - specialize (IH s' c n G' R B' N'). destruct (run s' l). exact IH.
  - exact B'.
Qed.

Lemma run_app : forall l l' s, ~ In Ended (fst (run s l)) -> snd (run s (l ++ l')) = snd (run (snd (run s l)) l').
Proof.
  induction l as [|o l IH]; intros l' s N; [reflexivity|].
  cbn [run app] in *. destruct (step s o) as [[] s'] eqn:E.
  - specialize (IH l' s'). destruct (run s' l) as [q s'']. destruct (run s' (l ++ l')) as [q' s3]. cbn in *. apply IH. tauto.
  - specialize (IH l' s'). destruct (run s' l) as [q s'']. destruct (run s' (l ++ l')) as [q' s3]. cbn in *. apply IH. tauto.
  - exfalso. apply N. left. reflexivity.
Qed.

Lemma stuck : forall l frag n l' o, ~ In Ended (fst (run initial l)) ->
  fst (step (after l) (Empty frag (Some n))) = Fine -> ~ In Clear l' ->
  (exists m, o = New (if frag then KFrag else KLoss) (Some n) m) \/ o = Empty frag (Some n) ->
  fst (step (after (l ++ Empty frag (Some n) :: l')) o) <> Fine.
Proof.
  intros l frag n l' o E A N O. unfold after. rewrite (run_app l _ initial E). fold (after l).
  pose proof (after_good l) as G. generalize dependent (after l). intros s A G.
  set (c := if frag then KFrag else KLoss) in *.
  assert (R : replaces c = true) by (destruct frag; reflexivity).
  assert (B : blocked (snd (step s (Empty frag (Some n)))) c n).
  { cbn [step] in *. fold c in A |- *. destruct (register_cases s c (Some n) None G (or_introl eq_refl)) as
      [(q & Gq & F & W & H & E' & L & Z)|(_ & _ & old & _ & [(_ & E')|(_ & _ & E')])]; rewrite E' in *; cbn [fst snd] in *; try discriminate.
    exists (wrappers s). split.
    - rewrite L. destruct (same (c, Some n) (c, Some n)); [|congruence]. destruct (same (c, Some n) (c, None)); [congruence|reflexivity].
    - rewrite F. cbn. rewrite Nat.eqb_refl. reflexivity. }
  cbn [run]. pose proof (step_ok s (Empty frag (Some n)) G) as (G' & _).
  destruct (step s (Empty frag (Some n))) as [a s'] eqn:Es. cbn [fst snd] in *. subst a.
  pose proof (run_blocked l' s' c n G' R B N) as B'. pose proof (run_good l' s' G') as G2.
  destruct (run s' l') as [q s'']. cbn [snd] in *.
  destruct (step_blocked s'' o c n G2 R B') as [_ H].
  - destruct O as [[m ->]| ->]; discriminate.
  - apply H. destruct O as [[m ->]| ->]; reflexivity.
Qed.
