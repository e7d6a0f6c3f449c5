(** * Caches: the properties, assembled *)
From Coq Require Import List Bool Arith Lia Permutation.
From Verif Require Import Cache Cache_spec Cache_proofs Cache_proofs2 Cache_proofs3 Cache_proofs4
  Cache_proofs5 Cache_proofs6 CVal CVal_proofs CVal_proofs2 CVal_proofs3.
From Verif Require Import Registry Registry_spec Registry_proofs.
Import ListNotations.

Section Fun.
  Context {V K T W : Type}.
  Variable kdec : forall x y : K, {x = y} + {x <> y}.
  Variable key : V -> K.
  Variable isnan : V -> bool.
  Variable func : W -> V -> option T.
  Variable dflt : T.
  Variable active : bool.
  Variable n : nat.
  Notation state := (@state V K T W).
  Notation step := (step kdec key isnan func dflt active n).
  Notation exec := (exec kdec key isnan func dflt active n).
  Notation run := (run kdec key isnan func dflt active n).
  Notation Inv := (@Inv V K T W kdec key n).

  Lemma asked_calls : forall p : list (@op V W), asked p = calls_of p.
  Proof. induction p as [|[v| |w] p IH]; cbn; [reflexivity| |exact IH|exact IH]. rewrite IH. reflexivity. Qed.

  Lemma reach_inv : forall w progs (s : state), exec (init w progs) s -> Inv s.
  Proof. intros. eapply inv_exec; [apply inv_init|eassumption]. Qed.

  Lemma sum_total : forall f m, sum_below f m = total f m.
  Proof. induction m; cbn; congruence. Qed.

  Lemma log_good : forall w progs (s : state), exec (init w progs) s -> g_overlap s = false ->
    forall j e, j < n -> In e (th_log (s_ths s j)) -> up_to_date key func e.
  Proof.
    intros w progs s Hx Ho j e Hj He.
    pose proof (v_log _ _ _ _ _ (vinv_exec _ _ _ _ _ _ _ _ _ _ Hx Ho) j e Hj He) as G.
    unfold entry_good in G. unfold up_to_date. destruct (en_answer e) as [t|].
    - destruct G as [w' [v' [H1 [H2 H3]]]]. exists w', v'. auto.
    - destruct G as [w' [H1 H2]]. exists w', (en_arg e). auto.
  Qed.

  Lemma still : forall w progs (s : state), (forall w v, func w v <> None) -> exec (init w progs) s ->
    (forall i, i < n -> step i s = None) -> forall j, j < n -> done (s_ths s j).
  Proof.
    intros w progs s Ht Hx Hst j Hj.
    destruct (progress kdec key isnan func dflt active n s (reach_inv _ _ _ Hx)) as [P|[i [Hi P]]].
    - destruct (P j Hj) as [P'|[v [a [_ P']]]]; [exact P'|].
      rewrite (alive_exec _ _ _ _ _ _ _ Ht _ _ _ Hx) in P'. discriminate.
    - exfalso. apply P. apply Hst. exact Hi.
  Qed.

  Lemma no_deadlock : (forall w v, func w v <> None) -> forall w progs (s : state), exec (init w progs) s ->
    (forall j, j < n -> done (s_ths s j)) \/ exists i, i < n /\ step i s <> None.
  Proof.
    intros Ht w progs s Hx.
    destruct (progress kdec key isnan func dflt active n s (reach_inv _ _ _ Hx)) as [P|P]; [left|right; exact P].
    intros j Hj. destruct (P j Hj) as [P'|[v [a [_ P']]]]; [exact P'|].
    rewrite (alive_exec _ _ _ _ _ _ _ Ht _ _ _ Hx) in P'. discriminate.
  Qed.

  Lemma bounded : forall w progs sched (s : state), run sched (init w progs) = Some s ->
    length sched <= 18 * sum_below (fun j => length (progs j)) n.
  Proof.
    intros w progs sched s H. apply run_bound in H. rewrite todo_init in H. rewrite sum_total. lia.
  Qed.

  Lemma finishes : (forall w v, func w v <> None) -> forall w progs (s : state), exec (init w progs) s ->
    exists s', exec s s' /\ forall j, j < n -> done (s_ths s' j).
  Proof.
    intros Ht w progs s Hx. destruct (run_to_end kdec key isnan func dflt active n _ s (le_n _)) as [s' [H1 H2]].
    exists s'. split; [exact H1|]. eapply (still w progs); eauto.
    clear - Hx H1. induction H1; [exact Hx|]. eapply exec_step; [apply IHexec; exact Hx|eassumption|eassumption].
  Qed.

  Lemma done_log : forall w progs (s : state) j, exec (init w progs) s -> done (s_ths s j) ->
    map en_arg (th_log (s_ths s j)) = asked (progs j).
  Proof.
    intros w progs s j Hx [D1 D2]. pose proof (history_exec _ _ _ _ _ _ _ _ _ _ Hx j) as H.
    unfold history in H. rewrite D1, D2 in H. cbn in H. rewrite !app_nil_r in H. rewrite asked_calls. exact H.
  Qed.

  Lemma exception_good : forall w progs (s : state), exec (init w progs) s -> g_overlap s = false ->
    forall j e, j < n -> In e (th_log (s_ths s j)) -> en_answer e = None ->
    exists w', In w' (en_worlds e) /\ func w' (en_arg e) = None.
  Proof.
    intros w progs s Hx Ho j e Hj He Hn.
    pose proof (v_log _ _ _ _ _ (vinv_exec _ _ _ _ _ _ _ _ _ _ Hx Ho) j e Hj He) as G.
    unfold entry_good in G. rewrite Hn in G. exact G.
  Qed.
End Fun.

Lemma answers_pure : forall {V K T W} (key : V -> K) (f : V -> T), respects key f ->
  forall (l : list (@entry V T W)) vs, map en_arg l = vs ->
  (forall e, In e l -> up_to_date key (pure W f) e) ->
  map (fun e => (en_arg e, en_answer e)) l = map (fun v => (v, Some (f v))) vs.
Proof.
  intros V K T W key f Hf l vs <- Hg. rewrite map_map. apply map_ext_in. intros e He.
  destruct (Hg e He) as [w [v [_ [Hk Ha]]]]. unfold pure in Ha. rewrite <- Ha. rewrite (Hf _ _ Hk). reflexivity.
Qed.

Lemma pure_total : forall {V T} W (f : V -> T) (w : W) v, pure W f w v <> None.
Proof. discriminate. Qed.

(** C01 *)
Lemma c01_function : forall V K T W (kdec : forall x y : K, {x = y} + {x <> y}) (key : V -> K)
  (isnan : V -> bool) (f : V -> T) (dflt : T) (active : bool) (w : W) (p : list (@op V W)),
  respects key f ->
  (exists s, exec kdec key isnan (pure W f) dflt active 1 (init w (fun _ => p)) s /\ done (s_ths s 0)) /\
  forall s, exec kdec key isnan (pure W f) dflt active 1 (init w (fun _ => p)) s ->
    (exists rest, map (fun v => (v, Some (f v))) (asked p) = answers (s_ths s 0) ++ rest) /\
    (done (s_ths s 0) -> answers (s_ths s 0) = map (fun v => (v, Some (f v))) (asked p)) /\
    (step kdec key isnan (pure W f) dflt active 1 0 s = None -> done (s_ths s 0)).
Proof.
  intros V K T W kdec key isnan f dflt active w p Hf. split.
  - destruct (finishes kdec key isnan (pure W f) dflt active 1 (pure_total W f) w (fun _ => p) _ (exec_refl _ _ _ _ _ _ _ _))
      as [s [H1 H2]]. exists s. split; [exact H1|]. apply H2. lia.
  - intros s Hx.
    assert (Hg : forall e, In e (th_log (s_ths s 0)) -> up_to_date key (pure W f) e).
    { intros e He. eapply (log_good kdec key isnan _ dflt active 1); try eassumption; [|lia].
      eapply alone_overlap; [reflexivity|exact Hx]. }
    split; [|split].
    + pose proof (history_exec _ _ _ _ _ _ _ _ _ _ Hx 0) as H. unfold history in H.
      rewrite asked_calls. rewrite <- H. rewrite map_app.
      eexists. unfold answers. rewrite <- (answers_pure key f Hf _ _ eq_refl Hg). reflexivity.
    + intros Hd. apply (answers_pure key f Hf); [|exact Hg]. exact (done_log _ _ _ _ _ _ _ _ _ _ 0 Hx Hd).
    + intros Hs. eapply still; [apply pure_total|exact Hx| |lia].
      intros i Hi. assert (i = 0) by lia. subst i. exact Hs.
Qed.

(** C02 *)
Lemma c02_once : forall V K T W (kdec : forall x y : K, {x = y} + {x <> y}) (key : V -> K)
  (isnan : V -> bool) (func : W -> V -> option T) (dflt : T) (active : bool) (n : nat) (w : W) progs s,
  exec kdec key isnan func dflt active n (init w progs) s ->
  (forall k, count_occ kdec (g_starts s) k <= 1) /\
  (forall v, active = true -> isnan v = false -> ~ In v (g_direct s)).
Proof.
  intros V K T W kdec key isnan func dflt active n w progs s Hx. split.
  - intros k. apply (si_once _ _ _ _ (sinv_exec _ _ _ _ _ _ _ _ _ _ Hx)).
  - intros v Ha Hv Hin. pose proof (d_direct _ _ _ (dinv_exec _ _ _ _ _ _ _ _ _ _ Hx) v Hin) as Q.
    unfold off in Q. rewrite Ha, Hv in Q. discriminate.
Qed.

(** C03 *)
Lemma c03_answers : forall V K T W (kdec : forall x y : K, {x = y} + {x <> y}) (key : V -> K)
  (isnan : V -> bool) (f : V -> T) (dflt : T) (active : bool) (n : nat) (w : W) progs s,
  respects key f -> (forall j, ~ In Clear (progs j)) ->
  exec kdec key isnan (pure W f) dflt active n (init w progs) s ->
  forall j, j < n ->
    (exists rest, map (fun v => (v, Some (f v))) (asked (progs j)) = answers (s_ths s j) ++ rest) /\
    (done (s_ths s j) -> answers (s_ths s j) = map (fun v => (v, Some (f v))) (asked (progs j))).
Proof.
  intros V K T W kdec key isnan f dflt active n w progs s Hf Hc Hx j Hj.
  assert (Hg : forall e, In e (th_log (s_ths s j)) -> up_to_date key (pure W f) e).
  { intros e He. eapply (log_good kdec key isnan _ dflt active n); try eassumption.
    eapply overlap_exec; eassumption. }
  split.
  - pose proof (history_exec _ _ _ _ _ _ _ _ _ _ Hx j) as H. unfold history in H.
    rewrite asked_calls. rewrite <- H. rewrite map_app.
    eexists. unfold answers. rewrite <- (answers_pure key f Hf _ _ eq_refl Hg). reflexivity.
  - intros Hd. apply (answers_pure key f Hf); [|exact Hg]. eapply done_log; eassumption.
Qed.

Lemma c03_locks : forall V K T W (kdec : forall x y : K, {x = y} + {x <> y}) (key : V -> K)
  (isnan : V -> bool) (func : W -> V -> option T) (dflt : T) (active : bool) (n : nat) (w : W) progs s,
  exec kdec key isnan func dflt active n (init w progs) s -> g_viol s = [].
Proof.
  intros. eapply inv_viol. eapply inv_exec; [apply inv_init|eassumption].
Qed.

(** C04 *)
Lemma c04_live : forall V K T W (kdec : forall x y : K, {x = y} + {x <> y}) (key : V -> K)
  (isnan : V -> bool) (func : W -> V -> option T) (dflt : T) (active : bool) (n : nat) (w : W) progs,
  (forall w v, func w v <> None) ->
  (forall s, exec kdec key isnan func dflt active n (init w progs) s ->
     (forall j, j < n -> done (s_ths s j)) \/
     exists i, i < n /\ step kdec key isnan func dflt active n i s <> None) /\
  (forall sched s, run kdec key isnan func dflt active n sched (init w progs) = Some s ->
     length sched <= 18 * sum_below (fun j => length (progs j)) n).
Proof.
  intros V K T W kdec key isnan func dflt active n w progs Ht. split.
  - intros s Hx. eapply no_deadlock; eassumption.
  - intros sched s H. eapply bounded; eassumption.
Qed.

(** C05 *)
Lemma c05_partial : forall V K T W (kdec : forall x y : K, {x = y} + {x <> y}) (key : V -> K)
  (isnan : V -> bool) (func : W -> V -> option T) (dflt : T) (active : bool) (n : nat) (w : W) progs s,
  exec kdec key isnan func dflt active n (init w progs) s -> g_overlap s = false ->
  forall j e, j < n -> In e (th_log (s_ths s j)) -> up_to_date key func e.
Proof. intros. eapply log_good; eassumption. Qed.

Lemma c05_one_thread : forall V K T W (kdec : forall x y : K, {x = y} + {x <> y}) (key : V -> K)
  (isnan : V -> bool) (func : W -> V -> option T) (dflt : T) (active : bool) (w : W) progs s,
  exec kdec key isnan func dflt active 1 (init w progs) s ->
  forall e, In e (th_log (s_ths s 0)) -> up_to_date key func e.
Proof.
  intros. eapply c05_partial; [eassumption| |apply Nat.lt_0_1|eassumption].
  eapply alone_overlap; [reflexivity|eassumption].
Qed.

(** A calculation in progress when the cache is cleared stores its (old) result
    afterwards; a later call gets it. *)
Definition c05_progs (j : nat) : list (@op nat nat) :=
  match j with 0 => [Call 7] | 1 => [SetWorld 1; Clear; Call 7] | _ => [] end.
Definition c05_sched : list nat := repeat 0 11 ++ repeat 1 2 ++ repeat 0 7 ++ repeat 1 6.

(** A clear between the end of the calculation and a waiting thread's read makes that
    thread return, and leave in the cache, a value nobody calculated. *)
Definition c05_progs' (j : nat) : list (@op nat nat) :=
  match j with 0 => [Call 7] | 1 => [Call 7] | 2 => [Clear; Call 7] | _ => [] end.
Definition c05_sched' : list nat :=
  repeat 0 11 ++ repeat 1 8 ++ repeat 0 7 ++ repeat 1 2 ++ [2] ++ repeat 1 5 ++ repeat 2 6.

Lemma c05_refuted :
  (exists s, run Nat.eq_dec (fun v : nat => v) (fun _ => false) (fun w _ => Some w) 0 true 2
                 c05_sched (init 0 c05_progs) = Some s /\
             done (s_ths s 0) /\ th_log (s_ths s 1) = [mkEntry 7 (Some 0) [1]]) /\
  (exists s, run Nat.eq_dec (fun v : nat => v) (fun _ => false) (fun w v => Some (v + 1)) 0 true 3
                 c05_sched' (init 0 c05_progs') = Some s /\
             answers (s_ths s 0) = [(7, Some 8)] /\ answers (s_ths s 1) = [(7, Some 0)] /\
             answers (s_ths s 2) = [(7, Some 0)]).
Proof.
  split.
  - eexists. split; [vm_compute; reflexivity|]. split; [split; reflexivity|reflexivity].
  - eexists. split; [vm_compute; reflexivity|]. repeat split; reflexivity.
Qed.

(** C06 *)
Lemma vasked_calls : forall W (p : list (@vop W)), vasked p = ncalls p.
Proof. induction p as [|[| |w] p IH]; cbn; [reflexivity| |exact IH|exact IH]. rewrite IH. reflexivity. Qed.

Lemma vsum_total : forall f m, sum_below f m = vtotal f m.
Proof. induction m; cbn; congruence. Qed.

Lemma vstill : forall T W (func : W -> option T) dflt ctor n w progs s, (forall w, func w <> None) ->
  vexec func n (vinit dflt ctor w progs) s ->
  (forall j, j < n -> vfin (c_ths s j)) \/ exists i, i < n /\ vstep func n i s <> None.
Proof.
  intros T W func dflt ctor n w progs s Ht Hx.
  assert (I : CInv ctor n s) by (eapply cinv_exec; [apply cinv_init|exact Hx]).
  destruct (vprogress func ctor n s I) as [P|P]; [left|right; exact P].
  intros j Hj. destruct (P j Hj) as [P'|[_ [_ P']]]; [exact P'|].
  rewrite (valive_exec func dflt ctor n Ht w progs s Hx) in P'. discriminate.
Qed.

Lemma c06_once : forall T W (func : W -> option T) dflt ctor n w progs s,
  vexec func n (vinit dflt ctor w progs) s ->
  h_starts s <= 1 /\ ~ In VVDuplicate (h_viol s) /\ ~ In VVLock (h_viol s).
Proof.
  intros T W func dflt ctor n w progs s Hx.
  assert (I : CInv ctor n s) by (eapply cinv_exec; [apply cinv_init|exact Hx]).
  split; [apply (ci_once _ _ _ I)|apply (ci_viol _ _ _ I)].
Qed.

Lemma c06_first : forall T W (func : W -> option T) dflt ctor n w progs,
  (forall w, func w <> None) -> (forall j, ~ In VClear (progs j)) ->
  (forall s, vexec func n (vinit dflt ctor w progs) s ->
     (forall j e, j < n -> In e (vt_log (c_ths s j)) -> vup_to_date func e) /\
     (h_viol s = [] \/ h_viol s = [VVWaitOther] /\ ~ (n = 1 /\ ctor = 0)) /\
     ((forall j, j < n -> vfin (c_ths s j)) \/ exists i, i < n /\ vstep func n i s <> None) /\
     (forall j, vfin (c_ths s j) -> length (vt_log (c_ths s j)) = vasked (progs j))) /\
  (forall sched s, vrun func n sched (vinit dflt ctor w progs) = Some s ->
     length sched <= 17 * sum_below (fun j => length (progs j)) n).
Proof.
  intros T W func dflt ctor n w progs Ht Hc. split.
  - intros s Hx.
    assert (Hc' : forall j, Forall (fun o => o <> VClear) (progs j)).
    { intros j. apply Forall_forall. intros o Ho ->. apply (Hc j Ho). }
    destruct (uncleared_exec func dflt ctor n w progs s Hc' Hx) as [U1 U2].
    assert (Cm : calm n s).
    { split; [exact U2|]. split; [|left; exact U1]. eapply valive_exec; eassumption. }
    split; [|split; [|split]].
    + intros j e Hj He. apply (vv_log _ _ _ (valinv_exec func dflt ctor n w progs s Hx Cm) j e Hj He).
    + pose proof (x_viol _ _ _ (xinv_exec func dflt ctor n w progs s Hx Cm U1)) as [Q|[Q1 [_ Q2]]]; auto.
    + eapply vstill; eassumption.
    + intros j [D1 D2]. pose proof (vhistory_exec func dflt ctor n w progs s Hx j) as H.
      unfold vhistory in H. rewrite D1, D2 in H. cbn in H. rewrite vasked_calls. lia.
  - intros sched s H. apply vrun_bound in H. rewrite vtodo_init in H. rewrite vsum_total. lia.
Qed.

(** C01 for a cached value: one thread, clears allowed. *)
Lemma c01_value : forall T W (t : T) dflt (w : W) (p : list (@vop W)),
  (exists s, vexec (fun _ => Some t) 1 (vinit dflt 0 w (fun _ => p)) s /\ vfin (c_ths s 0)) /\
  forall s, vexec (fun _ => Some t) 1 (vinit dflt 0 w (fun _ => p)) s ->
    Forall (fun a => a = Some t) (vanswers (c_ths s 0)) /\
    (vfin (c_ths s 0) -> vanswers (c_ths s 0) = repeat (Some t) (vasked p)) /\
    (vstep (fun _ => Some t) 1 0 s = None -> vfin (c_ths s 0)).
Proof.
  intros T W t dflt w p.
  assert (Ht : forall w : W, (fun _ : W => Some t) w <> None) by discriminate.
  assert (Hst : forall s, vexec (fun _ => Some t) 1 (vinit dflt 0 w (fun _ => p)) s ->
                vstep (fun _ => Some t) 1 0 s = None -> vfin (c_ths s 0)).
  { intros s Hx Hs. destruct (vstill _ _ _ _ _ _ _ _ _ Ht Hx) as [P|[i [Hi P]]]; [apply P; lia|].
    assert (i = 0) by lia. subst i. contradiction. }
  split.
  - destruct (vrun_to_end (fun _ : W => Some t) 1 _ (vinit dflt 0 w (fun _ => p)) (le_n _)) as [s [H1 H2]].
    exists s. split; [exact H1|]. apply Hst; [exact H1|]. apply H2. lia.
  - intros s Hx.
    assert (Cm : calm 1 s).
    { split; [eapply alone_exec; [reflexivity|exact Hx]|]. split; [eapply valive_exec; eassumption|right; reflexivity]. }
    assert (Hg : Forall (fun a => a = Some t) (vanswers (c_ths s 0))).
    { unfold vanswers. apply Forall_forall. intros a Ha. apply in_map_iff in Ha. destruct Ha as [e [<- He]].
      destruct (vv_log _ _ _ (valinv_exec _ dflt 0 1 w _ s Hx Cm) 0 e Nat.lt_0_1 He) as [w' [_ Q]].
      symmetry. exact Q. }
    split; [exact Hg|]. split; [|apply Hst; exact Hx].
    intros [D1 D2]. pose proof (vhistory_exec _ dflt 0 1 w _ s Hx 0) as H.
    unfold vhistory in H. rewrite D1, D2 in H. cbn in H.
    assert (Hl : length (vanswers (c_ths s 0)) = vasked p).
    { unfold vanswers. rewrite map_length, vasked_calls. lia. }
    revert Hg Hl. generalize (vasked p) as m. generalize (vanswers (c_ths s 0)) as l.
    clear. induction l as [|a l IH]; intros m Hg Hl; destruct m; try discriminate; [reflexivity|].
    inversion Hg; subst. cbn. f_equal. apply IH; auto.
Qed.

Lemma c05_value_one_thread : forall T W (func : W -> option T) dflt (w : W) progs s,
  vexec func 1 (vinit dflt 0 w progs) s -> h_dead s = false ->
  forall e, In e (vt_log (c_ths s 0)) -> vup_to_date func e.
Proof.
  intros T W func dflt w progs s Hx Hd e He.
  assert (Cm : calm 1 s).
  { split; [eapply alone_exec; [reflexivity|exact Hx]|]. split; [exact Hd|right; reflexivity]. }
  apply (vv_log _ _ _ (valinv_exec _ dflt 0 1 w _ s Hx Cm) 0 e Nat.lt_0_1 He).
Qed.

Lemma c06_refuted :
  (* the first calculation: the lock taken by the constructing thread 0 is released by 1 *)
  (exists s, vrun (fun _ : nat => Some 5) 2 (repeat 1 15) (vinit 0 0 0 (fun j => if j =? 1 then [VCall] else [])) = Some s /\
             h_viol s = [VVWaitOther]) /\
  (* after a clear: a lock that nobody holds is released *)
  (exists s, vrun (fun _ : nat => Some 5) 1 (repeat 0 33) (vinit 0 0 0 (fun _ => [VCall; VClear; VCall])) = Some s /\
             h_viol s = [VVWaitFree] /\ vfin (c_ths s 0)) /\
  (* after a clear: a caller arriving during the calculation does not wait, and returns the
     value from before the clear *)
  (exists s, vrun (fun w => Some w) 2 (repeat 0 24 ++ repeat 1 10)
                  (vinit 0 0 0 (fun j => if j =? 0 then [VCall; VSetWorld 1; VClear; VCall]
                                         else if j =? 1 then [VCall] else [])) = Some s /\
             vt_at (c_ths s 0) <> None /\ vt_log (c_ths s 1) = [mkVEntry (Some 0) [1]]).
Proof.
  split; [|split].
  - eexists. split; [vm_compute; reflexivity|]. reflexivity.
  - eexists. split; [vm_compute; reflexivity|]. split; [reflexivity|split; reflexivity].
  - eexists. split; [vm_compute; reflexivity|]. split; [discriminate|reflexivity].
Qed.

(** C08 *)
Section Dead.
  Context {V K T W : Type}.
  Variable kdec : forall x y : K, {x = y} + {x <> y}.
  Variable key : V -> K.
  Variable isnan : V -> bool.
  Variable func : W -> V -> option T.
  Variable dflt : T.
  Variable active : bool.
  Variable n : nat.
  Notation state := (@state V K T W).
  Notation step := (step kdec key isnan func dflt active n).
  Notation exec := (exec kdec key isnan func dflt active n).

  Lemma log_grows : forall (s s' : state) i, step i s = Some s' ->
    forall j, incl (th_log (s_ths s j)) (th_log (s_ths s' j)).
  Proof.
    intros s s' i H j. unfold Cache.step in H.
    destruct (th_at (s_ths s i)) as [[v l]|] eqn:E.
    - assert (Hg : forall (s0 : state) l', s_ths s0 = s_ths s -> incl (th_log (s_ths s j)) (th_log (s_ths (goto i v l' s0) j))).
      { intros s0 l' Es. cbn [goto s_ths]. rewrite Es. destruct (Nat.eq_dec j i) as [->|Hj].
        - rewrite upd_same. apply incl_refl.
        - rewrite upd_other by exact Hj. apply incl_refl. }
      assert (Hr : forall (s0 : state) r, s_ths s0 = s_ths s -> incl (th_log (s_ths s j)) (th_log (s_ths (return_ i v r s0) j))).
      { intros s0 r Es. cbn [return_ s_ths]. rewrite Es. destruct (Nat.eq_dec j i) as [->|Hj].
        - rewrite upd_same. apply incl_appl. apply incl_refl.
        - rewrite upd_other by exact Hj. apply incl_refl. }
      apply call_effect in H.
      inversion H; subst s'; try (apply Hg); try (apply Hr); try reflexivity; apply sm_ths; assumption.
    - destruct (th_prog (s_ths s i)) as [|o rest] eqn:Ep; [discriminate|].
      destruct o; injection H as <-; cbn [s_ths];
        (destruct (Nat.eq_dec j i) as [->|Hj];
          [rewrite upd_same; apply incl_refl|rewrite upd_other by exact Hj; apply incl_refl]).
  Qed.

  Lemma dead_call : forall s s' i v l, call_step kdec key isnan func dflt active i s v l = Some s' ->
    g_dead s' = g_dead s \/ l = C4b /\ s' = return_ i v None (die kdec (key v) s).
  Proof.
    intros s s' i v l H.
    assert (Hun : forall s0 : state, g_dead (unlock i s0) = g_dead s0).
    { intros s0. unfold unlock. destruct (s_lock s0) as [j|]; [destruct (Nat.eq_dec j i)|]; reflexivity. }
    assert (Hwr : forall k f (s0 : state), (forall a rc, g_dead (f a rc) = g_dead s0) ->
                  g_dead (with_rec k f s0) = g_dead s0).
    { intros k f s0 Hf. unfold with_rec. destruct (s_inproc s0 k); [|reflexivity].
      destruct (s_heap s0 n0); [apply Hf|reflexivity]. }
    assert (Hur : forall k (s0 : state), g_dead (unlock_rec i k s0) = g_dead s0).
    { intros k s0. unfold unlock_rec. apply Hwr. intros a rc.
      destruct (rc_owner rc) as [j|]; [destruct (Nat.eq_dec j i)|]; reflexivity. }
    assert (Her : forall k (s0 : state), g_dead (erase_rec kdec k s0) = g_dead s0).
    { intros k s0. unfold erase_rec. apply Hwr. reflexivity. }
    destruct l; cbn [call_step] in H;
      repeat match type of H with
             | match ?x with _ => _ end = _ => destruct x; try discriminate
             end; injection H as <-; cbn [goto return_ g_dead set_lock put_rec set_heap set_inproc
               set_next set_cache violate start direct];
      rewrite ?Hun, ?Hur, ?Her; auto; try (left; rewrite Hwr; auto; fail).
    destruct (s_cache s (key v)); auto.
  Qed.

  (** A key is dead only if somebody was told of an exception. *)
  Lemma dead_told : forall w progs (s : state), exec (init w progs) s ->
    forall k, g_dead s k = true -> exists j e, j < n /\ In e (th_log (s_ths s j)) /\
      key (en_arg e) = k /\ en_answer e = None.
  Proof.
    intros w progs s H. remember (init w progs) as s0 eqn:E0.
    induction H as [s1|s1 s2 s3 i Hx IH Hi Hs]; [subst; discriminate|].
    intros k Hk. specialize (IH E0).
    assert (Hor : g_dead s2 k = true \/ exists v, key v = k /\ th_at (s_ths s2 i) = Some (v, C4b) /\
              s3 = return_ i v None (die kdec (key v) s2)).
    { unfold Cache.step in Hs. destruct (th_at (s_ths s2 i)) as [[v l]|] eqn:E.
      - destruct (dead_call _ _ _ _ _ Hs) as [Q|[-> Q]]; [left; congruence|].
        subst s3. cbn in Hk. unfold upd in Hk. destruct (kdec k (key v)) as [->|]; [right; exists v; auto|left; exact Hk].
      - destruct (th_prog (s_ths s2 i)) as [|o rest]; [discriminate|].
        destruct o; injection Hs as <-; left; exact Hk. }
    destruct Hor as [Q|[v [Hv [E ->]]]].
    - destruct (IH k Q) as [j [e [H1 [H2 H3]]]]. exists j, e. split; [exact H1|]. split; [|exact H3].
      eapply log_grows; eassumption.
    - exists i. eexists. split; [exact Hi|]. split; [cbn; rewrite upd_same; apply in_or_app; right; left; reflexivity|].
      split; [exact Hv|reflexivity].
  Qed.

  Lemma c08_fun : forall w progs (s : state), exec (init w progs) s ->
    ((exists i, i < n /\ step i s <> None) \/
     forall j, j < n -> done (s_ths s j) \/
       exists v l, th_at (s_ths s j) = Some (v, l) /\
         exists j' e, j' < n /\ In e (th_log (s_ths s j')) /\ key (en_arg e) = key v /\ en_answer e = None) /\
    (g_overlap s = false -> forall j e, j < n -> In e (th_log (s_ths s j)) -> en_answer e = None ->
       exists w', In w' (en_worlds e) /\ func w' (en_arg e) = None).
  Proof.
    intros w progs s Hx. split.
    - destruct (progress kdec key isnan func dflt active n s (reach_inv _ _ _ _ _ _ _ _ _ _ Hx)) as [P|P]; [right|left; exact P].
      intros j Hj. destruct (P j Hj) as [Q|[v [a [Q1 Q2]]]]; [left; exact Q|]. right.
      exists v, (W3 a). split; [exact Q1|]. eapply dead_told; eassumption.
    - intros Ho j e Hj He Hn. eapply exception_good; eassumption.
  Qed.
End Dead.

Lemma c08_value : forall T W (func : W -> option T) dflt ctor n w progs s,
  vexec func n (vinit dflt ctor w progs) s ->
  (exists i, i < n /\ vstep func n i s <> None) \/
  forall j, j < n -> vfin (c_ths s j) \/ vt_at (c_ths s j) = Some LW1 /\ h_done s = false /\ h_dead s = true.
Proof.
  intros T W func dflt ctor n w progs s Hx.
  assert (I : CInv ctor n s) by (eapply cinv_exec; [apply cinv_init|exact Hx]).
  destruct (vprogress func ctor n s I) as [P|P]; [right; exact P|left; exact P].
Qed.

Lemma c08_refuted :
  (* a second call for the same argument waits for ever *)
  (exists s, run Nat.eq_dec (fun v : nat => v) (fun _ => false) (fun (_ : unit) _ => @None nat) 0 true 1
                 (repeat 0 19) (init tt (fun _ => [Call 7; Call 7])) = Some s /\
             answers (s_ths s 0) = [(7, None)] /\ ~ done (s_ths s 0) /\
             step Nat.eq_dec (fun v : nat => v) (fun _ => false) (fun (_ : unit) _ => @None nat) 0 true 1 0 s = None) /\
  (* so does a second call for a value *)
  (exists s, vrun (fun _ : unit => @None nat) 1 (repeat 0 13) (vinit 0 0 tt (fun _ => [VCall; VCall])) = Some s /\
             vanswers (c_ths s 0) = [None] /\ ~ vfin (c_ths s 0) /\
             vstep (fun _ : unit => @None nat) 1 0 s = None) /\
  (* or, if the value was calculated before, it returns the old value from before the clear *)
  (exists s, vrun (fun w => if w =? 0 then Some 3 else None) 1 (repeat 0 36)
                  (vinit 0 0 0 (fun _ => [VCall; VSetWorld 1; VClear; VCall; VCall])) = Some s /\
             vt_log (c_ths s 0) = [mkVEntry (Some 3) [0]; mkVEntry None [1]; mkVEntry (Some 3) [1]]).
Proof.
  split; [|split].
  - eexists. split; [vm_compute; reflexivity|]. split; [reflexivity|]. split; [intros [_ Q]|reflexivity].
    vm_compute in Q. discriminate.
  - eexists. split; [vm_compute; reflexivity|]. split; [reflexivity|]. split; [intros [_ Q]|reflexivity].
    vm_compute in Q. discriminate.
  - eexists. split; [vm_compute; reflexivity|]. reflexivity.
Qed.

(** C07 *)
Lemma c07 : forall K T (ops : list (rop K T)) order, proper (RClearAll order :: ops) ->
  exists r r', rrun (rev ops) rinit = Some r /\ rstep r (RClearAll order) = Some r' /\
    (forall a, r_live r a = live ops a) /\
    (forall a, live ops a = None -> r_live r' a = None) /\
    (forall a e, live ops a = Some (CFun e) -> r_live r' a = Some (CFun [])) /\
    (forall a b v, live ops a = Some (CVal b v) -> r_live r' a = Some (CVal false v)) /\
    r_caches r' = r_caches r /\ r_lock r' = r_lock r /\
    (forall a, In a (r_caches r) <-> live ops a <> None).
Proof.
  intros K T ops order Hp. destruct (tracks_run ops (proj1 Hp)) as [r [Hr Ht]].
  destruct (tracks_step ops (RClearAll order) r Hp Ht) as [r' [Hs Ht']].
  exists r, r'. split; [exact Hr|]. split; [exact Hs|].
  assert (Hl : forall a, r_live r' a = effect_at (RClearAll order) (live ops a)).
  { intros a. rewrite (proj1 Ht' a). reflexivity. }
  split; [apply (proj1 Ht)|].
  split; [intros a Q; rewrite Hl, Q; reflexivity|].
  split; [intros a e Q; rewrite Hl, Q; reflexivity|].
  split; [intros a b v Q; rewrite Hl, Q; reflexivity|].
  assert (Hc : r_caches r' = r_caches r /\ r_lock r' = r_lock r).
  { cbn [rstep] in Hs. unfold clear_caches, rlock in Hs.
    destruct (r_lock r) as [[|]|]; try discriminate. cbn [obind] in Hs.
    assert (G : forall l (q q' : reg K T), clear_each l q = Some q' -> r_caches q' = r_caches q /\ r_lock q' = r_lock q).
    { induction l as [|a l IH]; intros q q' H; cbn in H; [injection H as <-; auto|].
      unfold clear_at in H. destruct (r_live q a); [|discriminate]. cbn [obind] in H.
      apply IH in H. exact H. }
    destruct (clear_each _ _) as [q|] eqn:Q; [|discriminate]. apply G in Q. cbn in Q. destruct Q as [Q1 Q2].
    cbn [obind] in Hs. unfold runlock in Hs. rewrite Q2 in Hs. injection Hs as <-. cbn. auto. }
  split; [apply Hc|]. split; [apply Hc|]. apply Ht.
Qed.

(** Before any cache exists the lock of the registry is not initialised. *)
Lemma c07_first : forall K T, @rstep K T rinit (RClearAll (fun l => l)) = None.
Proof. reflexivity. Qed.
