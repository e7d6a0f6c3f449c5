(** * Many caches: the caches of SLAT, lists, and calculations that go round in circles *)
From Coq Require Import List Bool Arith Lia.
From Verif Require Import Cache Cache_proofs CVal Nested Nested_spec Nested_proofs Nested_proofs2
  Nested_proofs3 Nested_proofs4 Nested_proofs5.
Import ListNotations.

(** ** SLAT *)
Definition slat_height (o : slat_cache) : nat :=
  match o with
  | CollapseRate _ | DemolitionRate _ | EDPLambda _ | LossForCount _ | GroupRate _ => 0
  | CostEDPDist _ | DelayEDPDist _ => 1
  | ECostIM _ | EDelayIM _ => 2
  | SDLnCostIM _ | SDLnDelayIM _ | EAnnualCost _ => 3
  | LambdaCost _ | AnnualCost _ => 4
  end.

Lemma slat_layered : layered slat_uses.
Proof. exists slat_height. intros o o' U. destruct U; cbn; lia. Qed.

Definition slat_dec : forall x y : slat_cache, {x = y} + {x <> y}.
Proof. decide equality; apply Nat.eq_dec. Defined.

(** ** Lists *)
Lemma means_list : forall {O V T} (body : O -> V -> @prog O V T) o vs k r,
  means body (Par (map (fun v => Ask o v Ret) vs) k) r ->
  exists rs, Forall2 (fun v a => means body (body o v) a) vs rs /\ means body (k rs) r.
Proof.
  intros O V T body o vs k r M. inversion M as [| |ps k' rs r' Ms Mk]; subst. exists rs. split; [|exact Mk].
  clear - Ms. revert rs Ms. induction vs as [|v vs IH]; intros rs Ms; inversion Ms as [|x y l l' Mx Ml]; subst;
    constructor; [|apply IH; assumption].
  inversion Mx as [|o' v' k' a r' Ma Mr|]; subst. inversion Mr; subst. exact Ma.
Qed.

Section Top.
  Context {O V K T : Type}.
  Variable odec : forall x y : O, {x = y} + {x <> y}.
  Variable kdec : forall x y : K, {x = y} + {x <> y}.
  Variable key : V -> K.
  Variable isnan : V -> bool.
  Variable dflt : T.
  Variable active : O -> bool.
  Variable is_value : O -> bool.
  Variable ctor : O -> nat.
  Variable body : O -> V -> @prog O V T.
  Variable uses : O -> O -> Prop.
  Hypothesis Hf : follows body uses.
  Hypothesis Hl : layered uses.
  Hypothesis Hs : same_entry body key is_value.
  Notation ninit := (@ninit O V K T dflt is_value ctor).
  Notation nstep := (@nstep O V K T odec kdec key isnan dflt active body).
  Notation nexec := (@nexec O V K T odec kdec key isnan dflt active body).
  Notation nrun := (@nrun O V K T odec kdec key isnan dflt active body).

  Lemma top_answers : forall ps s, nexec (ninit ps) s ->
    (forall i p r, nth_error ps i = Some p -> finished s i r -> means body p r) /\
    (forall o, answers_right body o (n_objs s o)).
  Proof.
    destruct Hl as [h Hh]. intros ps s H. split.
    - eapply right_answers; eassumption.
    - eapply caches_right; eassumption.
  Qed.

  Lemma top_sound : forall ps s, nexec (ninit ps) s -> forall o, sound kdec (n_objs s o).
  Proof. destruct Hl as [h Hh]. intros ps s H. eapply caches_sound; eassumption. Qed.

  Lemma top_deadlock : forall ps s, nexec (ninit ps) s ->
    (forall i a, n_tasks s i = Some a -> exists r, finished s i r) \/ exists i, forall af, nstep i af s <> None.
  Proof. destruct Hl as [h Hh]. intros ps s H. eapply no_deadlock; eassumption. Qed.

  Lemma top_bounded : forall ps, exists B, forall sched s, nrun sched (ninit ps) = Some s -> length sched <= B.
  Proof. destruct Hl as [h Hh]. intros ps. eapply bounded; eassumption. Qed.

  Lemma top_ends : forall ps s, nexec (ninit ps) s -> (forall i af, nstep i af s = None) ->
    forall i p, nth_error ps i = Some p -> exists r, finished s i r /\ means body p r.
  Proof. destruct Hl as [h Hh]. intros ps s H. eapply ends_right; eassumption. Qed.

  Lemma top_meaning : forall p, exists r, means body p r /\ forall r', means body p r' -> r' = r.
  Proof.
    destruct Hl as [h Hh]. intros p. exists (eval (fn body h dflt) p).
    assert (M := means_all body uses h dflt Hf Hh p). split; [exact M|].
    intros r' M'. eapply means_unique; eassumption.
  Qed.

  Lemma top_list : forall ps s i o vs k r, nexec (ninit ps) s ->
    nth_error ps i = Some (Par (map (fun v => Ask o v Ret) vs) k) -> finished s i r ->
    exists rs, Forall2 (fun v a => means body (body o v) a) vs rs /\ means body (k rs) r.
  Proof.
    intros ps s i o vs k r H Ep Hr. apply means_list. eapply top_answers; eassumption.
  Qed.
End Top.

Lemma run_exec : forall {O V K T} odec kdec key isnan dflt active body sched (s1 s2 s3 : @nstate O V K T),
  nexec odec kdec key isnan dflt active body s1 s2 ->
  nrun odec kdec key isnan dflt active body sched s2 = Some s3 ->
  nexec odec kdec key isnan dflt active body s1 s3.
Proof.
  intros O V K T odec kdec key isnan dflt active body. induction sched as [|[i af] sched IH]; intros s1 s2 s3 H E;
    cbn [nrun] in E; [congruence|].
  destruct (nstep odec kdec key isnan dflt active body i af s2) as [s'|] eqn:Est; [|discriminate].
  eapply IH; [|exact E]. eapply nexec_step; eassumption.
Qed.

Lemma none_beyond : forall {O V K T} odec kdec key isnan dflt active is_value ctor body ps (s : @nstate O V K T),
  nexec odec kdec key isnan dflt active body (ninit dflt is_value ctor ps) s ->
  forall i, n_next s <= i -> n_tasks s i = None.
Proof.
  intros O V K T odec kdec key isnan dflt active is_value ctor body ps s H.
  remember (ninit dflt is_value ctor ps) as s0 eqn:E0. induction H as [s|s1 s2 s3 i af H IH Hst].
  - subst s. intros i Hi. cbn [ninit n_tasks n_next] in *. apply nth_error_None in Hi. rewrite Hi. reflexivity.
  - specialize (IH E0).
    assert (Hi : i < n_next s2).
    { destruct (Nat.lt_ge_cases i (n_next s2)) as [Hlt|Hge]; [exact Hlt|].
      unfold nstep in Hst. rewrite (IH i Hge) in Hst. discriminate. }
    assert (Hput : forall a (l : list (@act O V T)) (t : @nstate O V K T) x, n_tasks t = n_tasks s2 -> n_next t = n_next s2 ->
      n_next s2 + length l <= x -> n_tasks (put i a (new l t)) x = None).
    { intros a l t x E1 E2 Hx. unfold put, new. cbn [n_tasks n_next]. rewrite upd_other by lia. rewrite E2.
      replace (x <? n_next s2) with false by (symmetry; apply Nat.ltb_ge; lia). apply nth_error_None. lia. }
    assert (Hput0 : forall a (t : @nstate O V K T) x, n_tasks t = n_tasks s2 -> n_next s2 <= x -> n_tasks (put i a t) x = None).
    { intros a t x E1 Hx. unfold put. cbn [n_tasks]. rewrite upd_other by lia. rewrite E1. apply IH. exact Hx. }
    unfold nstep in Hst. destruct (n_tasks s2 i) as [a|] eqn:Ea; [|discriminate].
    destruct a as [p|q p|q k|js k|o v|o v q|r]; [destruct p as [r|o v k|ps' k]| | | | | |discriminate];
      repeat match type of Hst with
             | match ?x with _ => _ end = _ => destruct x; try discriminate
             end; injection Hst as <-; intros x Hx.
    all: try (apply Hput0; [reflexivity|exact Hx]).
    all: apply Hput; [reflexivity|reflexivity|exact Hx].
Qed.

(** ** A scheduler, for examples *)
Section Drive.
  Context {O V K T : Type}.
  Variable step : nat -> (nat -> option nat) -> @nstate O V K T -> option (@nstate O V K T).
  Variable af : nat -> option nat.
  (** The first task from [i] on, of [n], that can go on. *)
  Fixpoint find (n i : nat) (s : @nstate O V K T) : option (nat * @nstate O V K T) :=
    match n with
    | 0 => None
    | S n => let i := if i <? n_next s then i else 0 in
             match step i af s with Some s' => Some (i, s') | None => find n (S i) s end
    end.
  Fixpoint drive (fuel i : nat) (s : @nstate O V K T) : list nat * @nstate O V K T :=
    match fuel with
    | 0 => ([], s)
    | S fuel => match find (S (n_next s)) i s with
                | Some (j, s') => let (l, s'') := drive fuel (S j) s' in (j :: l, s'')
                | None => ([], s)
                end
    end.
End Drive.

(** ** In circles *)
Definition circle_body (o : bool) (v : nat) : @prog bool nat nat := Ask (negb o) v (fun a => Ret (S a)).
Definition circle_step := @nstep bool nat nat nat bool_dec Nat.eq_dec (fun v => v) (fun _ => false) 0 (fun _ => true) circle_body.
Definition circle_init := @ninit bool nat nat nat 0 (fun _ => false) (fun _ => 0) [Ask true 7 Ret].
Definition circle_sched : list (nat * (nat -> option nat)) :=
  map (fun i => (i, fun _ => None)) (fst (drive circle_step (fun _ => None) 100 0 circle_init)).


Definition circle_end :=
  nrun bool_dec Nat.eq_dec (fun v => v) (fun _ => false) 0 (fun _ => true) circle_body circle_sched circle_init.
Definition circle_dead (s : @nstate bool nat nat nat) : bool :=
  match n_tasks s 0 with Some (Fin _) => false | _ => true end &&
  forallb (fun i => match n_tasks s i with
                    | Some (Run _) | None => false
                    | Some _ => match circle_step i (fun _ => None) s with None => true | _ => false end
                    end) (seq 0 (n_next s)).

Lemma circle_ends : exists s, circle_end = Some s /\ circle_dead s = true.
Proof.
  assert (Hb : match circle_end with Some s => circle_dead s | None => false end = true) by (vm_compute; reflexivity).
  revert Hb. generalize circle_end. intros [s|] Hb; [exists s; split; [reflexivity|exact Hb]|discriminate].
Qed.

Lemma circle_reached : forall s, circle_end = Some s ->
  nexec bool_dec Nat.eq_dec (fun v => v) (fun _ => false) 0 (fun _ => true) circle_body circle_init s.
Proof.
  intros s. unfold circle_end. generalize circle_sched circle_init. intros l s0 E.
  eapply run_exec; [apply nexec_refl|exact E].
Qed.

Lemma refute_circles : exists (body : bool -> nat -> @prog bool nat nat) ps s,
  nexec bool_dec Nat.eq_dec (fun v => v) (fun _ => false) 0 (fun _ => true) body
    (ninit (K:=nat) 0 (fun _ => false) (fun _ => 0) ps) s /\
  (exists i p, nth_error ps i = Some p /\ forall r, ~ finished s i r) /\
  forall i af, nstep bool_dec Nat.eq_dec (fun v => v) (fun _ => false) 0 (fun _ => true) body i af s = None.
Proof.
  exists circle_body, [Ask true 7 Ret].
  destruct circle_ends as [s [Eo Hb]]. exists s.
  assert (Hex := circle_reached s Eo). unfold circle_init in Hex.
  clear Eo. split; [exact Hex|]. unfold circle_dead in Hb. apply andb_true_iff in Hb. destruct Hb as [Hb0 Hb]. split.
  - exists 0, (Ask true 7 Ret). split; [reflexivity|]. intros r Hr.
    unfold finished in Hr. rewrite Hr in Hb0. discriminate.
  - intros i af.
    destruct (Nat.lt_ge_cases i (n_next s)) as [Hlt|Hge].
    2:{ unfold nstep. rewrite (none_beyond _ _ _ _ _ _ _ _ _ _ _ Hex i Hge). reflexivity. }
    rewrite forallb_forall in Hb. specialize (Hb i ltac:(apply in_seq; clear - Hlt; lia)).
    unfold circle_step, nstep in Hb |- *. destruct (n_tasks s i) as [[]|]; try discriminate; try reflexivity;
      match type of Hb with match ?x with _ => _ end = _ => destruct x; congruence end.
Qed.

(** ** A small model in the shape of SLAT's calculations, for examples *)
Definition toy_body (o : slat_cache) (v : nat) : @prog slat_cache nat nat :=
  match o with
  | LossForCount b => Ret (v * v + b)
  | CostEDPDist g => Ask (LossForCount 0) v (fun a => Ask (LossForCount 1) v (fun b => Ret (a + b + g)))
  | ECostIM g => Par (map (fun x => Ask (CostEDPDist g) x Ret) [v; S v; v]) (fun rs => Ret (list_sum rs))
  | SDLnCostIM g => Ask (ECostIM g) v (fun a => Ask (CostEDPDist g) v (fun b => Ret (a * b)))
  | AnnualCost s => Par [Par [Ask (ECostIM 0) 1 Ret; Ask (SDLnCostIM 0) 1 Ret] (fun rs => Ret (list_sum rs));
                         Par [Ask (ECostIM 1) 2 Ret; Ask (SDLnCostIM 1) 2 Ret] (fun rs => Ret (list_sum rs))]
                        (fun rs => Ret (list_sum rs))
  | _ => Ret 0
  end.

Lemma toy_follows : follows toy_body slat_uses.
Proof.
  intros o v. destruct o; cbn [toy_body map];
    repeat (constructor || intros _ || intros ?); constructor.
Qed.

Lemma toy_same : same_entry toy_body (fun v => v) slat_value.
Proof.
  intros o v v' [H| ->] r M; [|exact M]. destruct o; try discriminate; exact M.
Qed.

Definition toy_step := @nstep slat_cache nat nat nat slat_dec Nat.eq_dec (fun v => v) (fun _ => false) 0 (fun _ => true) toy_body.
(** The figure for the building, asked for twice, and a list of figures with a repetition. *)
Definition toy_ps : list (@prog slat_cache nat nat) :=
  [Ask (AnnualCost 0) 0 Ret; Ask (AnnualCost 0) 0 (fun a => Ask (SDLnCostIM 0) 1 (fun b => Ret (a + b)));
   Par (map (fun x => Ask (SDLnCostIM 1) x Ret) [2; 3; 2]) (fun rs => Ret (list_sum rs))].
Definition toy_init := @ninit slat_cache nat nat nat 0 slat_value (fun _ => 0) toy_ps.
(** The second iteration of each loop is executed by the thread of the first. *)
Definition toy_share (m : nat) : option nat := if m =? 1 then Some 0 else None.
Definition toy_sched : list (nat * (nat -> option nat)) :=
  map (fun i => (i, toy_share)) (fst (drive toy_step toy_share 1000 0 toy_init)).

Definition toy_value (p : @prog slat_cache nat nat) : nat := eval (fn toy_body slat_height 0) p.
Lemma toy_means : forall p r, toy_value p = r -> means toy_body p r.
Proof.
  intros p r <-. apply (means_all toy_body slat_uses slat_height 0 toy_follows).
  intros o o' U. destruct U; cbn; lia.
Qed.
