(** * Properties of the caches: C01-C08 *)
From Coq Require Import List Bool Arith.
From Verif Require Import Cache Cache_spec CVal Registry Registry_spec Cache_claims_proofs.
Import ListNotations.

(** ** C01.  One thread, any program of calls and clears: the answers are those of the
    calculation, the program runs to its end, and never stops earlier. *)
Theorem C01_transparent : forall V K T W (kdec : forall x y : K, {x = y} + {x <> y}) (key : V -> K)
  (isnan : V -> bool) (f : V -> T) (dflt : T) (active : bool) (w : W) (p : list (@op V W)),
  respects key f ->
  (exists s, exec kdec key isnan (pure W f) dflt active 1 (init w (fun _ => p)) s /\ done (s_ths s 0)) /\
  forall s, exec kdec key isnan (pure W f) dflt active 1 (init w (fun _ => p)) s ->
    (exists rest, map (fun v => (v, Some (f v))) (asked p) = answers (s_ths s 0) ++ rest) /\
    (done (s_ths s 0) -> answers (s_ths s 0) = map (fun v => (v, Some (f v))) (asked p)) /\
    (step kdec key isnan (pure W f) dflt active 1 0 s = None -> done (s_ths s 0)).
Proof. exact c01_function. Qed.
Print Assumptions C01_transparent.

(** The same for a cached value. *)
Theorem C01_value_transparent : forall T W (t : T) dflt (w : W) (p : list (@vop W)),
  (exists s, vexec (fun _ => Some t) 1 (vinit dflt 0 w (fun _ => p)) s /\ vfin (c_ths s 0)) /\
  forall s, vexec (fun _ => Some t) 1 (vinit dflt 0 w (fun _ => p)) s ->
    Forall (fun a => a = Some t) (vanswers (c_ths s 0)) /\
    (vfin (c_ths s 0) -> vanswers (c_ths s 0) = repeat (Some t) (vasked p)) /\
    (vstep (fun _ => Some t) 1 0 s = None -> vfin (c_ths s 0)).
Proof. exact c01_value. Qed.
Print Assumptions C01_value_transparent.

(** A calculation that respects the keys, arguments 3 and 4 sharing one; argument 9 is "NaN". *)
Example C01_example :
  respects (fun v => v / 2) (fun v => 10 * (v / 2)) /\
  exists s, run Nat.eq_dec (fun v => v / 2) (fun v => v =? 9) (pure unit (fun v => 10 * (v / 2))) 0 true 1
                (repeat 0 (18 + 6 + 1 + 18 + 5)) (init tt (fun _ => [Call 4; Call 5; Clear; Call 4; Call 9])) = Some s /\
            answers (s_ths s 0) = [(4, Some 20); (5, Some 20); (4, Some 20); (9, Some 40)] /\
            g_starts s = [2] /\ g_direct s = [9].
Proof.
  split; [intros v v' H; congruence|]. eexists. split; [vm_compute; reflexivity|]. repeat split; reflexivity.
Qed.

(** ** C02.  Any number of threads, any programs (clears included), any interleaving: since
    the last clear the calculation was started at most once per key, and never outside the
    cache (unless the argument is NaN or the cache is off). *)
Theorem C02_once : forall V K T W (kdec : forall x y : K, {x = y} + {x <> y}) (key : V -> K)
  (isnan : V -> bool) (func : W -> V -> option T) (dflt : T) (active : bool) (n : nat) (w : W) progs s,
  exec kdec key isnan func dflt active n (init w progs) s ->
  (forall k, count_occ kdec (g_starts s) k <= 1) /\
  (forall v, active = true -> isnan v = false -> ~ In v (g_direct s)).
Proof. exact c02_once. Qed.
Print Assumptions C02_once.

(** Two threads want the same value; the second waits. *)
Example C02_example :
  exists s, run Nat.eq_dec (fun v : nat => v) (fun _ => false) (fun (_ : unit) v => Some (v * v)) 0 true 2
                (repeat 0 10 ++ repeat 1 8 ++ repeat 0 8 ++ repeat 1 7)
                (init tt (fun _ => [Call 3])) = Some s /\
            g_starts s = [3] /\ answers (s_ths s 0) = [(3, Some 9)] /\ answers (s_ths s 1) = [(3, Some 9)].
Proof. eexists. split; [vm_compute; reflexivity|]. repeat split; reflexivity. Qed.

(** ** C03.  Without clears every call of every thread gets the right answer, in order. *)
Theorem C03_answers : forall V K T W (kdec : forall x y : K, {x = y} + {x <> y}) (key : V -> K)
  (isnan : V -> bool) (f : V -> T) (dflt : T) (active : bool) (n : nat) (w : W) progs s,
  respects key f -> (forall j, ~ In Clear (progs j)) ->
  exec kdec key isnan (pure W f) dflt active n (init w progs) s ->
  forall j, j < n ->
    (exists rest, map (fun v => (v, Some (f v))) (asked (progs j)) = answers (s_ths s j) ++ rest) /\
    (done (s_ths s j) -> answers (s_ths s j) = map (fun v => (v, Some (f v))) (asked (progs j))).
Proof. exact c03_answers. Qed.
Print Assumptions C03_answers.

(** With or without clears: no alarm, no lock released by a thread not holding it, no
    access to a destroyed lock record, no record initialised twice. *)
Theorem C03_locks : forall V K T W (kdec : forall x y : K, {x = y} + {x <> y}) (key : V -> K)
  (isnan : V -> bool) (func : W -> V -> option T) (dflt : T) (active : bool) (n : nat) (w : W) progs s,
  exec kdec key isnan func dflt active n (init w progs) s -> g_viol s = [].
Proof. exact c03_locks. Qed.
Print Assumptions C03_locks.

(** Three threads: one calculates, two wait and leave one after the other. *)
Example C03_example :
  exists s, run Nat.eq_dec (fun v : nat => v) (fun _ => false) (pure unit (fun v => v * v)) 0 true 3
                (repeat 0 10 ++ repeat 1 8 ++ repeat 2 8 ++ repeat 0 8 ++ repeat 2 7 ++ repeat 1 7)
                (init tt (fun _ => [Call 3])) = Some s /\
            (forall j, j < 3 -> answers (s_ths s j) = [(3, Some 9)] /\ done (s_ths s j)) /\
            s_inproc s 3 = None.
Proof.
  eexists. split; [vm_compute; reflexivity|]. split; [|reflexivity].
  intros [|[|[|j]]] Hj; [| | |exfalso; do 3 apply Nat.succ_lt_mono in Hj; inversion Hj];
    (split; [reflexivity|split; reflexivity]).
Qed.

(** ** C04.  If the calculation does not throw there is no deadlock, and no schedule takes
    more than 18 steps per operation. *)
Theorem C04_no_deadlock : forall V K T W (kdec : forall x y : K, {x = y} + {x <> y}) (key : V -> K)
  (isnan : V -> bool) (func : W -> V -> option T) (dflt : T) (active : bool) (n : nat) (w : W) progs,
  (forall w v, func w v <> None) ->
  (forall s, exec kdec key isnan func dflt active n (init w progs) s ->
     (forall j, j < n -> done (s_ths s j)) \/
     exists i, i < n /\ step kdec key isnan func dflt active n i s <> None) /\
  (forall sched s, run kdec key isnan func dflt active n sched (init w progs) = Some s ->
     length sched <= 18 * sum_below (fun j => length (progs j)) n).
Proof. exact c04_live. Qed.
Print Assumptions C04_no_deadlock.

(** In the middle of the run above thread 1 cannot move, but thread 0 can. *)
Example C04_example :
  exists s, run Nat.eq_dec (fun v : nat => v) (fun _ => false) (pure unit (fun v => v * v)) 0 true 2
                (repeat 0 10 ++ repeat 1 8) (init tt (fun _ => [Call 3])) = Some s /\
            step Nat.eq_dec (fun v : nat => v) (fun _ => false) (pure unit (fun v => v * v)) 0 true 2 1 s = None /\
            step Nat.eq_dec (fun v : nat => v) (fun _ => false) (pure unit (fun v => v * v)) 0 true 2 0 s <> None.
Proof. eexists. split; [vm_compute; reflexivity|]. split; [reflexivity|discriminate]. Qed.

(** ** C05.  False: thread 1 changes the state from 0 to 1, clears the cache, and only then
    calls; it gets the result for state 0.  And: a clear can make callers, including one that
    starts after the clear, return a value (0) that the calculation (v + 1) never gives. *)
Theorem C05_clear_refuted :
  (exists s, run Nat.eq_dec (fun v : nat => v) (fun _ => false) (fun w _ => Some w) 0 true 2
                 c05_sched (init 0 c05_progs) = Some s /\
             done (s_ths s 0) /\ th_log (s_ths s 1) = [mkEntry 7 (Some 0) [1]]) /\
  (exists s, run Nat.eq_dec (fun v : nat => v) (fun _ => false) (fun w v => Some (v + 1)) 0 true 3
                 c05_sched' (init 0 c05_progs') = Some s /\
             answers (s_ths s 0) = [(7, Some 8)] /\ answers (s_ths s 1) = [(7, Some 0)] /\
             answers (s_ths s 2) = [(7, Some 0)]).
Proof. exact c05_refuted. Qed.
Print Assumptions C05_clear_refuted.

(** What holds: as long as no clear meets a call in progress, every answer is that of the
    calculation in a state in force since the last clear.  Missing: clears during calls. *)
Theorem C05_clear_partial : forall V K T W (kdec : forall x y : K, {x = y} + {x <> y}) (key : V -> K)
  (isnan : V -> bool) (func : W -> V -> option T) (dflt : T) (active : bool) (n : nat) (w : W) progs s,
  exec kdec key isnan func dflt active n (init w progs) s -> g_overlap s = false ->
  forall j e, j < n -> In e (th_log (s_ths s j)) -> up_to_date key func e.
Proof. exact c05_partial. Qed.
Print Assumptions C05_clear_partial.

(** With one thread no clear can meet a call. *)
Theorem C05_one_thread_partial : forall V K T W (kdec : forall x y : K, {x = y} + {x <> y}) (key : V -> K)
  (isnan : V -> bool) (func : W -> V -> option T) (dflt : T) (active : bool) (w : W) progs s,
  exec kdec key isnan func dflt active 1 (init w progs) s ->
  forall e, In e (th_log (s_ths s 0)) -> up_to_date key func e.
Proof. exact c05_one_thread. Qed.
Print Assumptions C05_one_thread_partial.

Theorem C05_value_one_thread_partial : forall T W (func : W -> option T) dflt (w : W) progs s,
  vexec func 1 (vinit dflt 0 w progs) s -> h_dead s = false ->
  forall e, In e (vt_log (c_ths s 0)) -> vup_to_date func e.
Proof. exact c05_value_one_thread. Qed.
Print Assumptions C05_value_one_thread_partial.

Example C05_example :
  exists s, run Nat.eq_dec (fun v : nat => v) (fun _ => false) (fun w _ => Some w) 0 true 1
                (repeat 0 (18 + 1 + 6 + 1 + 18)) (init 0 (fun _ => [Call 7; SetWorld 1; Call 7; Clear; Call 7])) = Some s /\
            g_overlap s = false /\
            th_log (s_ths s 0) = [mkEntry 7 (Some 0) [0]; mkEntry 7 (Some 0) [1; 0]; mkEntry 7 (Some 1) [1]].
Proof. eexists. split; [vm_compute; reflexivity|]. split; reflexivity. Qed.

(** ** C06.  False in three ways: the waiting lock, taken by the constructing thread, is
    released by another; after a clear it is released although nobody holds it; and after a
    clear callers do not wait for the new calculation but return the old value. *)
Theorem C06_value_refuted :
  (exists s, vrun (fun _ : nat => Some 5) 2 (repeat 1 15) (vinit 0 0 0 (fun j => if j =? 1 then [VCall] else [])) = Some s /\
             h_viol s = [VVWaitOther]) /\
  (exists s, vrun (fun _ : nat => Some 5) 1 (repeat 0 33) (vinit 0 0 0 (fun _ => [VCall; VClear; VCall])) = Some s /\
             h_viol s = [VVWaitFree] /\ vfin (c_ths s 0)) /\
  (exists s, vrun (fun w => Some w) 2 (repeat 0 24 ++ repeat 1 10)
                  (vinit 0 0 0 (fun j => if j =? 0 then [VCall; VSetWorld 1; VClear; VCall]
                                         else if j =? 1 then [VCall] else [])) = Some s /\
             vt_at (c_ths s 0) <> None /\ vt_log (c_ths s 1) = [mkVEntry (Some 0) [1]]).
Proof. exact c06_refuted. Qed.
Print Assumptions C06_value_refuted.

(** What holds always: at most one calculation per clear, no alarm, and the main lock is
    released only by its holder. *)
Theorem C06_once_partial : forall T W (func : W -> option T) dflt ctor n w progs s,
  vexec func n (vinit dflt ctor w progs) s ->
  h_starts s <= 1 /\ ~ In VVDuplicate (h_viol s) /\ ~ In VVLock (h_viol s).
Proof. exact c06_once. Qed.
Print Assumptions C06_once_partial.

(** What holds until the first clear: every answer is that of the calculation; the only
    possible misuse is the single release of the constructing thread's lock (impossible with
    one thread); no deadlock, and at most 17 steps per operation. *)
Theorem C06_first_partial : forall T W (func : W -> option T) dflt ctor n w progs,
  (forall w, func w <> None) -> (forall j, ~ In VClear (progs j)) ->
  (forall s, vexec func n (vinit dflt ctor w progs) s ->
     (forall j e, j < n -> In e (vt_log (c_ths s j)) -> vup_to_date func e) /\
     (h_viol s = [] \/ h_viol s = [VVWaitOther] /\ ~ (n = 1 /\ ctor = 0)) /\
     ((forall j, j < n -> vfin (c_ths s j)) \/ exists i, i < n /\ vstep func n i s <> None) /\
     (forall j, vfin (c_ths s j) -> length (vt_log (c_ths s j)) = vasked (progs j))) /\
  (forall sched s, vrun func n sched (vinit dflt ctor w progs) = Some s ->
     length sched <= 17 * sum_below (fun j => length (progs j)) n).
Proof. exact c06_first. Qed.
Print Assumptions C06_first_partial.

Example C06_example :
  exists s, vrun (fun w => Some (w + 5)) 2 (repeat 0 7 ++ repeat 1 5 ++ repeat 0 9 ++ repeat 1 5)
                 (vinit 0 0 0 (fun _ => [VCall])) = Some s /\
            vanswers (c_ths s 0) = [Some 5] /\ vanswers (c_ths s 1) = [Some 5] /\ h_starts s = 1 /\ h_viol s = [].
Proof. eexists. split; [vm_compute; reflexivity|]. repeat split; reflexivity. Qed.

(** ** C07.  After any history of creating, destroying, filling and clearing caches,
    Clear_Caches empties every live cache, touches no dead one, and changes nothing else. *)
Theorem C07_clear_caches : forall K T (ops : list (rop K T)) order, proper (RClearAll order :: ops) ->
  exists r r', rrun (rev ops) rinit = Some r /\ rstep r (RClearAll order) = Some r' /\
    (forall a, r_live r a = live ops a) /\
    (forall a, live ops a = None -> r_live r' a = None) /\
    (forall a e, live ops a = Some (CFun e) -> r_live r' a = Some (CFun [])) /\
    (forall a b v, live ops a = Some (Registry.CVal b v) -> r_live r' a = Some (Registry.CVal false v)) /\
    r_caches r' = r_caches r /\ r_lock r' = r_lock r /\
    (forall a, In a (r_caches r) <-> live ops a <> None).
Proof. exact c07. Qed.
Print Assumptions C07_clear_caches.

(** Not covered by [proper]: before the first cache is made, Clear_Caches locks a lock that
    nobody has initialised. *)
Theorem C07_first_refuted : forall K T, @rstep K T rinit (RClearAll (fun l => l)) = None.
Proof. exact c07_first. Qed.
Print Assumptions C07_first_refuted.

(** A history: two functions and a value made, one function destroyed, the address reused. *)
Example C07_example :
  let ops := [RStore 1 (CFun [(4, 16)]); RNew 1 (CFun []); RDelete 1; RStore 2 (Registry.CVal true 7);
              RNew 2 (Registry.CVal false 0); RNew 1 (@CFun nat nat [])] in
  proper (RClearAll (@rev nat) :: ops) /\
  live ops 1 = Some (CFun [(4, 16)]) /\ live ops 2 = Some (Registry.CVal true 7) /\ live ops 3 = None.
Proof.
  split; [|repeat split; reflexivity]. cbn. repeat split; try discriminate.
  - intros l. apply Permutation.Permutation_sym. apply Permutation.Permutation_rev.
  - exists (RNew 1 (CFun [])). split; [auto|exact I].
Qed.

(** ** C08.  False: after an exception a second call for the same argument (or value) waits
    for ever; a value calculated before returns the result from before the clear. *)
Theorem C08_exception_refuted :
  (exists s, run Nat.eq_dec (fun v : nat => v) (fun _ => false) (fun (_ : unit) _ => @None nat) 0 true 1
                 (repeat 0 19) (init tt (fun _ => [Call 7; Call 7])) = Some s /\
             answers (s_ths s 0) = [(7, None)] /\ ~ done (s_ths s 0) /\
             step Nat.eq_dec (fun v : nat => v) (fun _ => false) (fun (_ : unit) _ => @None nat) 0 true 1 0 s = None) /\
  (exists s, vrun (fun _ : unit => @None nat) 1 (repeat 0 13) (vinit 0 0 tt (fun _ => [VCall; VCall])) = Some s /\
             vanswers (c_ths s 0) = [None] /\ ~ vfin (c_ths s 0) /\
             vstep (fun _ : unit => @None nat) 1 0 s = None) /\
  (exists s, vrun (fun w => if w =? 0 then Some 3 else None) 1 (repeat 0 36)
                  (vinit 0 0 0 (fun _ => [VCall; VSetWorld 1; VClear; VCall; VCall])) = Some s /\
             vt_log (c_ths s 0) = [mkVEntry (Some 3) [0]; mkVEntry None [1]; mkVEntry (Some 3) [1]]).
Proof. exact c08_refuted. Qed.
Print Assumptions C08_exception_refuted.

(** What holds: a thread can be left waiting only for an argument for which some caller was
    given an exception; and exceptions come from the calculation (unless a clear met a call).
    Missing: later calls for that argument. *)
Theorem C08_exception_partial : forall V K T W (kdec : forall x y : K, {x = y} + {x <> y}) (key : V -> K)
  (isnan : V -> bool) (func : W -> V -> option T) (dflt : T) (active : bool) (n : nat) (w : W) progs s,
  exec kdec key isnan func dflt active n (init w progs) s ->
  ((exists i, i < n /\ step kdec key isnan func dflt active n i s <> None) \/
   forall j, j < n -> done (s_ths s j) \/
     exists v l, th_at (s_ths s j) = Some (v, l) /\
       exists j' e, j' < n /\ In e (th_log (s_ths s j')) /\ key (en_arg e) = key v /\ en_answer e = None) /\
  (g_overlap s = false -> forall j e, j < n -> In e (th_log (s_ths s j)) -> en_answer e = None ->
     exists w', In w' (en_worlds e) /\ func w' (en_arg e) = None).
Proof. exact @c08_fun. Qed.
Print Assumptions C08_exception_partial.

Theorem C08_value_partial : forall T W (func : W -> option T) dflt ctor n w progs s,
  vexec func n (vinit dflt ctor w progs) s ->
  (exists i, i < n /\ vstep func n i s <> None) \/
  forall j, j < n -> vfin (c_ths s j) \/ vt_at (c_ths s j) = Some LW1 /\ h_done s = false /\ h_dead s = true.
Proof. exact c08_value. Qed.
Print Assumptions C08_value_partial.

(** An exception for argument 7 leaves argument 8 usable. *)
Example C08_example :
  exists s, run Nat.eq_dec (fun v : nat => v) (fun _ => false) (fun (_ : unit) v => if v =? 7 then None else Some v)
                0 true 1 (repeat 0 (11 + 18)) (init tt (fun _ => [Call 7; Call 8])) = Some s /\
            answers (s_ths s 0) = [(7, None); (8, Some 8)] /\ done (s_ths s 0).
Proof. eexists. split; [vm_compute; reflexivity|]. repeat split; reflexivity. Qed.
