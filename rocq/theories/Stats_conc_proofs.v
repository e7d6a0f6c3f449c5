(** * Proofs about the statistics under concurrency *)
From Coq Require Import ZArith List Bool Lia.
From Verif Require Import Num Maq Stats_conc.
Import ListNotations.
Local Open Scope Z_scope.

Definition modulus (c : counter_field) : Z :=
  match c with CSearchEvals | CIntEvals => 18446744073709551616 | _ => 4294967296 end.

Lemma wrap_mod : forall c z, wrap_counter c z = z mod modulus c.
Proof. intros [] z; reflexivity. Qed.

Definition field_eqb (c d : counter_field) : bool :=
  match c, d with
  | CCalls, CCalls | CSearchEvals, CSearchEvals | CSearchFails, CSearchFails | CNans, CNans
  | CIntEvals, CIntEvals | CSuccesses, CSuccesses | CIntFails, CIntFails => true
  | _, _ => false
  end.

(** What a program still adds to a counter. *)
Fixpoint pending (c : counter_field) (p : list action) : Z :=
  match p with
  | [] => 0
  | AAdd d n :: rest => (if field_eqb c d then n else 0) + pending c rest
  | _ :: rest => pending c rest
  end.
Fixpoint pending_all (c : counter_field) (l : list (list action)) : Z :=
  match l with [] => 0 | p :: rest => pending c p + pending_all c rest end.

Lemma pending_app : forall c p q, pending c (p ++ q) = pending c p + pending c q.
Proof.
  intros c p q. induction p as [|[d n|m v|m v] p IH]; cbn [app pending]; try exact IH; lia.
Qed.
Lemma pending_all_app : forall c p q, pending_all c (p ++ q) = pending_all c p + pending_all c q.
Proof. intros c p q. induction p as [|x p IH]; cbn [app pending_all]; lia. Qed.

Lemma get_put : forall c d v st,
  get_counter c (put_counter d v st) = if field_eqb c d then v else get_counter c st.
Proof. intros [] [] v [mi fi ei ms fs es ca su na]; reflexivity. Qed.
Lemma get_put_max : forall c m v st, get_counter c (put_max m v st) = get_counter c st.
Proof. intros [] [] v [mi fi ei ms fs es ca su na]; reflexivity. Qed.

Lemma mod_pos : forall c, modulus c > 0.
Proof. intros []; reflexivity. Qed.

(** An action moves what it adds from the program to the counter. *)
Lemma exec_balance : forall c a st st' more,
  exec a st = (st', more) ->
  (get_counter c st' + pending c more) mod modulus c
  = (get_counter c st + pending c [a]) mod modulus c.
Proof.
  intros c a st st' more E. destruct a as [d n|m v|m v]; cbn [exec] in E; injection E as <- <-.
  - rewrite get_put. cbn [pending]. destruct (field_eqb c d) eqn:Ef.
    + assert (c = d) by (destruct c, d; (reflexivity || discriminate)). subst d.
      rewrite wrap_mod, !Z.add_0_r, Zmod_mod. reflexivity.
    + f_equal; lia.
  - destruct (get_max m st <? v); cbn [pending]; f_equal; lia.
  - rewrite get_put_max. reflexivity.
Qed.

Lemma csteps_balance : forall c s1 s2, csteps s1 s2 ->
  (get_counter c (fst s2) + pending_all c (snd s2)) mod modulus c
  = (get_counter c (fst s1) + pending_all c (snd s1)) mod modulus c.
Proof.
  intros c s1 s2 H. induction H as [s|s1 s2 s3 H1 H2 IH]; [reflexivity|].
  rewrite IH. clear IH H2 s3. destruct H1 as [st a rest before after st' more E].
  cbn [fst snd]. rewrite !pending_all_app. cbn [pending_all].
  change (pending c (a :: rest)) with (pending c ([a] ++ rest)). rewrite !pending_app.
  pose proof (exec_balance c a st st' more E) as B.
  set (R := pending c rest + pending_all c after + pending_all c before).
  replace (get_counter c st' + _) with ((get_counter c st' + pending c more) + R) by (unfold R; lia).
  replace (get_counter c st + _) with ((get_counter c st + pending c [a]) + R) by (unfold R; lia).
  rewrite Zplus_mod, B, <- Zplus_mod. reflexivity.
Qed.

Lemma finished_pending : forall c l, Forall (fun p => p = []) l -> pending_all c l = 0.
Proof. intros c l H. induction H as [|p l -> _ IH]; cbn; [reflexivity|exact IH]. Qed.

(** Counters stay reduced. *)
Definition reduced (st : stats) : Prop :=
  forall c, get_counter c st mod modulus c = get_counter c st.

Lemma exec_reduced : forall a st st' more, exec a st = (st', more) -> reduced st -> reduced st'.
Proof.
  intros a st st' more E H c. destruct a as [d n|m v|m v]; cbn [exec] in E; injection E as <- <-.
  - rewrite get_put. destruct (field_eqb c d) eqn:Ef; [|apply H].
    assert (c = d) by (destruct c, d; (reflexivity || discriminate)). subst d.
    rewrite wrap_mod, Zmod_mod. reflexivity.
  - apply H.
  - rewrite get_put_max. apply H.
Qed.

Lemma csteps_reduced : forall s1 s2, csteps s1 s2 -> reduced (fst s1) -> reduced (fst s2).
Proof.
  intros s1 s2 H. induction H as [s|s1 s2 s3 H1 H2 IH]; [auto|].
  intros Hr. apply IH. destruct H1 as [st a rest before after st' more E].
  cbn [fst] in *. eapply exec_reduced; eassumption.
Qed.

(** A thread alone does what [stats_step] says. *)
Lemma run_alone_stats_step : forall (N : Num) (r : maq_result N) st,
  run_alone 8 (actions r) st = Some (stats_step st r).
Proof.
  intros N r [mi fi ei ms fs es ca su na]. unfold actions, stats_step.
  destruct (mr_exit r); cbn -[Z.ltb u32 u64];
    repeat (match goal with |- context [if ?b then _ else _] => destruct b eqn:? end;
            cbn -[Z.ltb u32 u64]); reflexivity.
Qed.

Lemma run_alone_csteps : forall fuel p st st' before after, run_alone fuel p st = Some st' ->
  csteps (st, before ++ p :: after) (st', before ++ [] :: after).
Proof.
  induction fuel as [|k IH]; intros p st st' before after H; destruct p as [|a rest]; cbn in H;
    try (injection H as <-; constructor); try discriminate.
  destruct (exec a st) as [st1 more] eqn:E.
  eapply csteps_step; [constructor; exact E|]. apply IH. exact H.
Qed.

Lemma csteps_trans : forall s1 s2 s3, csteps s1 s2 -> csteps s2 s3 -> csteps s1 s3.
Proof. intros s1 s2 s3 H. induction H; intros; [assumption|]. econstructor; eauto. Qed.

(** Running the threads one after another is one of the schedules. *)
Lemma sequential_schedule : forall (N : Num) (rs : list (maq_result N)) st before,
  csteps (st, before ++ map actions rs)
         (fold_left stats_step rs st, before ++ map (fun _ => []) rs).
Proof.
  intros N rs. induction rs as [|r rs IH]; intros st before; cbn [map fold_left]; [constructor|].
  eapply csteps_trans.
  - apply (run_alone_csteps 8). apply run_alone_stats_step.
  - specialize (IH (stats_step st r) (before ++ [[]])). rewrite <- !app_assoc in IH. exact IH.
Qed.

Lemma seq_finished : forall (N : Num) (rs : list (maq_result N)) st,
  finished (st, map (fun _ => []) rs).
Proof. intros N rs st. unfold finished. cbn [snd]. apply Forall_forall. intros p Hp.
  apply in_map_iff in Hp. destruct Hp as [r [<- _]]. reflexivity. Qed.

Lemma counters_agree : forall (N : Num) (rs : list (maq_result N)) st st' ps,
  reduced st ->
  csteps (st, map actions rs) (st', ps) -> finished (st', ps) ->
  forall c, get_counter c st' = get_counter c (fold_left stats_step rs st).
Proof.
  intros N rs st st' ps Hr H Hf c.
  pose proof (csteps_balance c _ _ H) as B1. cbn [fst snd] in B1.
  rewrite (finished_pending c ps Hf), Z.add_0_r in B1.
  pose proof (sequential_schedule N rs st []) as S. cbn [app] in S.
  pose proof (csteps_balance c _ _ S) as B2. cbn [fst snd] in B2.
  rewrite (finished_pending c (map (fun _ : maq_result N => []) rs) (seq_finished N rs st)), Z.add_0_r in B2.
  pose proof (csteps_reduced _ _ H Hr c) as R1. pose proof (csteps_reduced _ _ S Hr c) as R2.
  cbn [fst] in R1, R2. congruence.
Qed.

(** The recorded maxima never exceed the true maximum. *)
Definition writes_below (m : max_field) (v : Z) (a : action) : Prop :=
  match a with
  | AAdd _ _ => True
  | ATest m' w | AWrite m' w => m' = m -> w <= v
  end.

Lemma get_max_put : forall m c v st, get_max m (put_counter c v st) = get_max m st.
Proof. intros [] [] v [mi fi ei ms fs es ca su na]; reflexivity. Qed.
Lemma get_max_put_max : forall m m' v st,
  get_max m (put_max m' v st) = match m, m' with
                                | MSearch, MSearch | MIntegration, MIntegration => v
                                | _, _ => get_max m st
                                end.
Proof. intros [] [] v [mi fi ei ms fs es ca su na]; reflexivity. Qed.

Lemma csteps_max_bound : forall m v s1 s2, csteps s1 s2 ->
  get_max m (fst s1) <= v -> Forall (Forall (writes_below m v)) (snd s1) ->
  get_max m (fst s2) <= v /\ Forall (Forall (writes_below m v)) (snd s2).
Proof.
  intros m v s1 s2 H. induction H as [s|s1 s2 s3 H1 H2 IH]; [auto|].
  intros Hm Hall. apply IH; destruct H1 as [st a rest before after st' more E]; cbn [fst snd] in *;
    apply Forall_app in Hall; destruct Hall as [Hb Hall]; inversion Hall as [|p l Hp Ha]; subst;
    inversion Hp as [|a' rest' Hw Hrest]; subst;
    destruct a as [d n|m' w|m' w]; cbn [exec] in E; injection E as <- <-.
  - rewrite get_max_put. exact Hm.
  - exact Hm.
  - rewrite get_max_put_max. cbn in Hw. destruct m, m'; try exact Hm; apply Hw; reflexivity.
  - apply Forall_app; split; [exact Hb|]. constructor; assumption.
  - apply Forall_app; split; [exact Hb|]. constructor; [|exact Ha].
    apply Forall_app; split; [|exact Hrest].
    destruct (get_max m' st <? w); repeat constructor; exact Hw.
  - apply Forall_app; split; [exact Hb|]. constructor; assumption.
Qed.
