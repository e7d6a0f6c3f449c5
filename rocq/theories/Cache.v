(** * Cached functions: model of CachedFunction (/repo/src/caching.h:96-323)

    Any number of threads run programs of calls, clears and changes of the state the
    calculation reads.  Every access to shared data and every lock operation is one step
    of its own; a step names the thread that moves.  Simplifications:
    - memory is sequentially consistent; [ClearCache] (287-289), which takes no lock, is
      one atomic step (in C++ it is a data race);
    - the calculation is a function of the argument and of a shared "world" that threads
      may change, read at one instant; it may throw, but does not call back into caches
      (calculations that do: [Nested.v]);
    - [hits] and [total_calls] (319-320, diagnostics never read) are left out;
    - addresses of [in_process] records are never reused.
    Misuse (a lock released by a thread not holding it, an access to a destroyed or
    missing record, the DUPLICATE alarm) is recorded in a list of violations. *)
From Coq Require Import List Bool Arith.
Import ListNotations.

(** Point update of a total map. No counterpart in /repo. *)
Definition upd {A B : Type} (dec : forall x y : A, {x = y} + {x <> y})
           (m : A -> B) (a : A) (b : B) : A -> B :=
  fun x => if dec x a then b else m x.

Section Cache.
  Context {V K T W : Type}.
  Variable kdec : forall x y : K, {x = y} + {x <> y}.
  (** What [std::unordered_map] takes two arguments to be: [key v = key v'] when the map
      finds the same entry for them (e.g. 0.0 and -0.0). *)
  Variable key : V -> K.
  Variable isnan : V -> bool.
  (** The calculation given to the constructor (106-119); [None]: it throws. *)
  Variable func : W -> V -> option T.
  (** [T()], what [cache[v]] inserts when there is no entry (268). *)
  Variable dflt : T.
  (** caching.h:299 [cache_active]. *)
  Variable active : bool.

  (** caching.h:302-305 [WAITING], with the owner of the lock. *)
  Record record : Type := mkRec { rc_owner : option nat; rc_count : nat }.

  (** Misuse of locks and records (caching.h 154-278). *)
  Inductive violation : Type :=
  | VDuplicate            (* 239-243 *)
  | VNotOwner             (* a lock released by a thread that does not hold it *)
  | VNoRecord             (* an access to a missing or destroyed record *)
  | VReinit.              (* omp_init_lock on an existing record *)

  (** Where a thread is inside [operator()]. caching.h 150-280. *)
  Inductive label : Type :=
  | P0                    (* 154 set lock *)
  | P1                    (* 164 active && !isnan *)
  | P2                    (* 177 cache.count *)
  | P3                    (* 188 in_process.count *)
  | W0                    (* 196 count++ *)
  | W1                    (* 197 calc_lock = &... *)
  | W2 (a : nat)          (* 198 unset lock *)
  | W3 (a : nat)          (* 199 set calc_lock *)
  | W4                    (* 209 set lock *)
  | W5                    (* 210 count-- *)
  | W6                    (* 211 count > 0 ? *)
  | W7                    (* 212 unset entry lock *)
  | W8                    (* 214 erase entry *)
  | C0                    (* 223 init entry lock *)
  | C1                    (* 224 set entry lock *)
  | C2                    (* 225 count = 0 *)
  | C3                    (* 226 unset lock *)
  | C4                    (* 228 the calculation starts *)
  | C4b                   (* 228 the calculation ends or throws *)
  | C5 (r : T)            (* 230 set lock *)
  | C6 (r : T)            (* 239 DUPLICATE ? *)
  | C7 (r : T)            (* 245 cache[v] = result *)
  | C8                    (* 253 count == 0 ? *)
  | C9                    (* 254 erase entry *)
  | C10                   (* 256 unset entry lock *)
  | PRead                 (* 268 result = cache[v] *)
  | PUnl (r : T)          (* 269 unset lock, return *)
  | Q0                    (* 277 unset lock *)
  | Q1.                   (* 278 calculation without cache *)

  (** What a thread is to do next. caching.h 150, 287. *)
  Inductive op : Type := Call (v : V) | Clear | SetWorld (w : W).

  (** A finished call: argument, answer ([None]: an exception), and, as a ghost, the worlds
      in force since the last clear. No counterpart in /repo. *)
  Record entry : Type := mkEntry { en_arg : V; en_answer : option T; en_worlds : list W }.

  (** A thread: the calls it has still to make, the place it is at inside one, the
      calls it has finished; no counterpart in /repo. *)
  Record thread : Type := mkTh {
    th_prog : list op;
    th_at : option (V * label);
    th_log : list entry
  }.

  (** caching.h:291-320, the threads, and ghosts: the worlds since the last clear, the
      calculations started since the last clear (cached path), keys whose calculation
      threw, whether some clear happened while a call was in progress, the arguments of
      the calculations started on the uncached path, violations. *)
  Record state : Type := mkState {
    s_lock : option nat;
    s_cache : K -> option T;
    s_inproc : K -> option nat;
    s_heap : nat -> option record;
    s_next : nat;
    s_world : W;
    s_ths : nat -> thread;
    g_worlds : list W;
    g_starts : list K;
    g_dead : K -> bool;
    g_overlap : bool;
    g_direct : list V;
    g_viol : list violation
  }.

  (** Number of threads. *)
  Variable n : nat.

  (** The start: caching.h:106-129; each thread has its program. *)
  Definition init (w : W) (progs : nat -> list op) : state :=
    mkState None (fun _ => None) (fun _ => None) (fun _ => None) 0 w
            (fun i => mkTh (progs i) None []) [w] [] (fun _ => false) false [] [].

  Section Step.
    Variable i : nat.       (* the thread that moves *)
    Variable s : state.
    Let th := s_ths s i.

    (** Pieces of steps. Go on to the next statement of caching.h 154-278. *)
    Definition goto (v : V) (l : label) (s : state) : state :=
      mkState (s_lock s) (s_cache s) (s_inproc s) (s_heap s) (s_next s) (s_world s)
              (upd Nat.eq_dec (s_ths s) i
                   (mkTh (th_prog (s_ths s i)) (Some (v, l)) (th_log (s_ths s i))))
              (g_worlds s) (g_starts s) (g_dead s) (g_overlap s) (g_direct s) (g_viol s).
    (** [return] (caching.h 269, 278): the call is logged. *)
    Definition return_ (v : V) (r : option T) (s : state) : state :=
      mkState (s_lock s) (s_cache s) (s_inproc s) (s_heap s) (s_next s) (s_world s)
              (upd Nat.eq_dec (s_ths s) i
                   (mkTh (th_prog (s_ths s i)) None
                         (th_log (s_ths s i) ++ [mkEntry v r (g_worlds s)])))
              (g_worlds s) (g_starts s) (g_dead s) (g_overlap s) (g_direct s) (g_viol s).
    (** Field update ([lock], caching.h 291-320). *)
    Definition set_lock (l : option nat) (s : state) : state :=
      mkState l (s_cache s) (s_inproc s) (s_heap s) (s_next s) (s_world s) (s_ths s)
              (g_worlds s) (g_starts s) (g_dead s) (g_overlap s) (g_direct s) (g_viol s).
    (** Field update (caching.h 291-320). *)
    Definition set_cache (c : K -> option T) (s : state) : state :=
      mkState (s_lock s) c (s_inproc s) (s_heap s) (s_next s) (s_world s) (s_ths s)
              (g_worlds s) (g_starts s) (g_dead s) (g_overlap s) (g_direct s) (g_viol s).
    (** Field update (caching.h 291-320). *)
    Definition set_inproc (m : K -> option nat) (s : state) : state :=
      mkState (s_lock s) (s_cache s) m (s_heap s) (s_next s) (s_world s) (s_ths s)
              (g_worlds s) (g_starts s) (g_dead s) (g_overlap s) (g_direct s) (g_viol s).
    (** Field update (caching.h 291-320). *)
    Definition set_heap (h : nat -> option record) (s : state) : state :=
      mkState (s_lock s) (s_cache s) (s_inproc s) h (s_next s) (s_world s) (s_ths s)
              (g_worlds s) (g_starts s) (g_dead s) (g_overlap s) (g_direct s) (g_viol s).
    (** Field update (caching.h 291-320). *)
    Definition set_next (k : nat) (s : state) : state :=
      mkState (s_lock s) (s_cache s) (s_inproc s) (s_heap s) k (s_world s) (s_ths s)
              (g_worlds s) (g_starts s) (g_dead s) (g_overlap s) (g_direct s) (g_viol s).
    (** Ghost update; no counterpart in /repo. *)
    Definition violate (x : violation) (s : state) : state :=
      mkState (s_lock s) (s_cache s) (s_inproc s) (s_heap s) (s_next s) (s_world s) (s_ths s)
              (g_worlds s) (g_starts s) (g_dead s) (g_overlap s) (g_direct s) (x :: g_viol s).
    (** Ghost update; no counterpart in /repo. *)
    Definition start (k : K) (s : state) : state :=
      mkState (s_lock s) (s_cache s) (s_inproc s) (s_heap s) (s_next s) (s_world s) (s_ths s)
              (g_worlds s) (k :: g_starts s) (g_dead s) (g_overlap s) (g_direct s) (g_viol s).
    (** Ghost update; no counterpart in /repo. *)
    Definition die (k : K) (s : state) : state :=
      mkState (s_lock s) (s_cache s) (s_inproc s) (s_heap s) (s_next s) (s_world s) (s_ths s)
              (g_worlds s) (g_starts s) (upd kdec (g_dead s) k true) (g_overlap s) (g_direct s) (g_viol s).

    (** Ghost update; no counterpart in /repo. *)
    Definition direct (v : V) (s : state) : state :=
      mkState (s_lock s) (s_cache s) (s_inproc s) (s_heap s) (s_next s) (s_world s) (s_ths s)
              (g_worlds s) (g_starts s) (g_dead s) (g_overlap s) (v :: g_direct s) (g_viol s).

    (** omp_unset_lock(&lock). caching.h 198, 226, 269, 277. *)
    Definition unlock (s : state) : state :=
      match s_lock s with
      | Some j => if Nat.eq_dec j i then set_lock None s else violate VNotOwner (set_lock None s)
      | None => violate VNotOwner s
      end.

    (** Access to the record [in_process[v]]. caching.h 196-256. *)
    Definition with_rec (k : K) (f : nat -> record -> state) (s : state) : state :=
      match s_inproc s k with
      | None => violate VNoRecord s
      | Some a =>
          match s_heap s a with
          | None => violate VNoRecord s
          | Some rc => f a rc
          end
      end.

    (** Field update of a record (caching.h 196, 210, 225). *)
    Definition put_rec (a : nat) (rc : record) (s : state) : state :=
      set_heap (upd Nat.eq_dec (s_heap s) a (Some rc)) s.

    (** omp_unset_lock(&in_process[v].lock). caching.h 212, 256. *)
    Definition unlock_rec (k : K) (s : state) : state :=
      with_rec k (fun a rc =>
        let s' := put_rec a (mkRec None (rc_count rc)) s in
        match rc_owner rc with
        | Some j => if Nat.eq_dec j i then s' else violate VNotOwner s'
        | None => violate VNotOwner s'
        end) s.

    (** in_process.erase(v). caching.h 214, 254. *)
    Definition erase_rec (k : K) (s : state) : state :=
      with_rec k (fun a _ =>
        set_inproc (upd kdec (s_inproc s) k None)
                   (set_heap (upd Nat.eq_dec (s_heap s) a None) s)) s.

    (** The count of a record (0 if there is none, a violation elsewhere).
        caching.h 211, 253. *)
    Definition rec_count (k : K) (s : state) : nat :=
      match s_inproc s k with
      | Some a => match s_heap s a with Some rc => rc_count rc | None => 0 end
      | None => 0
      end.

    (** caching.h:144-282; [None]: the thread waits for a lock. *)
    Definition call_step (v : V) (l : label) : option state :=
      let k := key v in
      match l with
      | P0 => match s_lock s with
              | None => Some (goto v P1 (set_lock (Some i) s))
              | Some _ => None
              end
      | P1 => Some (goto v (if active && negb (isnan v) then P2 else Q0) s)
      | P2 => Some (goto v (match s_cache s k with Some _ => PRead | None => P3 end) s)
      | P3 => Some (goto v (match s_inproc s k with Some _ => W0 | None => C0 end) s)
      | W0 => Some (goto v W1 (with_rec k (fun a rc =>
                                 put_rec a (mkRec (rc_owner rc) (S (rc_count rc))) s) s))
      | W1 => match s_inproc s k with
              | Some a => Some (goto v (W2 a) s)
              | None => Some (goto v (W2 (s_next s)) (violate VNoRecord s))
              end
      | W2 a => Some (goto v (W3 a) (unlock s))
      | W3 a => match s_heap s a with
                | None => Some (goto v W4 (violate VNoRecord s))
                | Some rc =>
                    match rc_owner rc with
                    | Some _ => None
                    | None => Some (goto v W4 (put_rec a (mkRec (Some i) (rc_count rc)) s))
                    end
                end
      | W4 => match s_lock s with
              | None => Some (goto v W5 (set_lock (Some i) s))
              | Some _ => None
              end
      | W5 => Some (goto v W6 (with_rec k (fun a rc =>
                                 put_rec a (mkRec (rc_owner rc) (pred (rc_count rc))) s) s))
      | W6 => Some (goto v (if 0 <? rec_count k s then W7 else W8)
                         (with_rec k (fun _ _ => s) s))
      | W7 => Some (goto v PRead (unlock_rec k s))
      | W8 => Some (goto v PRead (erase_rec k s))
      | C0 => match s_inproc s k with
              | None =>
                  let a := s_next s in
                  Some (goto v C1 (set_next (S a) (set_inproc (upd kdec (s_inproc s) k (Some a))
                                     (put_rec a (mkRec None 0) s))))
              | Some a => Some (goto v C1 (violate VReinit s))
              end
      | C1 => match s_inproc s k with
              | Some a =>
                  match s_heap s a with
                  | None => Some (goto v C2 (violate VNoRecord s))
                  | Some rc =>
                      match rc_owner rc with
                      | Some _ => None
                      | None => Some (goto v C2 (put_rec a (mkRec (Some i) (rc_count rc)) s))
                      end
                  end
              | None => Some (goto v C2 (violate VNoRecord s))
              end
      | C2 => Some (goto v C3 (with_rec k (fun a rc => put_rec a (mkRec (rc_owner rc) 0) s) s))
      | C3 => Some (goto v C4 (unlock s))
      | C4 => Some (goto v C4b (start k s))
      | C4b => match func (s_world s) v with
               | Some r => Some (goto v (C5 r) s)
               | None => Some (return_ v None (die k s))
               end
      | C5 r => match s_lock s with
                | None => Some (goto v (C6 r) (set_lock (Some i) s))
                | Some _ => None
                end
      | C6 r => Some (goto v (C7 r)
                           (match s_cache s k with Some _ => violate VDuplicate s | None => s end))
      | C7 r => Some (goto v C8 (set_cache (upd kdec (s_cache s) k (Some r)) s))
      | C8 => Some (goto v (if rec_count k s =? 0 then C9 else C10)
                         (with_rec k (fun _ _ => s) s))
      | C9 => Some (goto v PRead (erase_rec k s))
      | C10 => Some (goto v PRead (unlock_rec k s))
      | PRead => match s_cache s k with
                 | Some r => Some (goto v (PUnl r) s)
                 | None => Some (goto v (PUnl dflt) (set_cache (upd kdec (s_cache s) k (Some dflt)) s))
                 end
      | PUnl r => Some (return_ v (Some r) (unlock s))
      | Q0 => Some (goto v Q1 (unlock s))
      | Q1 => Some (return_ v (func (s_world s) v) (direct v s))
      end.

    (** Some thread other than this one is inside a call. Ghost; no counterpart in /repo. *)
    Fixpoint busy (m : nat) : bool :=
      match m with
      | O => false
      | S j => (match th_at (s_ths s j) with Some _ => true | None => false end) || busy j
      end.

    (** The next step of thread [i]; [None]: it waits, or has nothing left to do.
        caching.h 150-289. *)
    Definition step : option state :=
      match th_at th with
      | Some (v, l) => call_step v l
      | None =>
          match th_prog th with
          | [] => None
          | o :: rest =>
              let ths at_ := upd Nat.eq_dec (s_ths s) i (mkTh rest at_ (th_log th)) in
              match o with
              | Call v =>
                  Some (mkState (s_lock s) (s_cache s) (s_inproc s) (s_heap s) (s_next s)
                                (s_world s) (ths (Some (v, P0)))
                                (g_worlds s) (g_starts s) (g_dead s) (g_overlap s) (g_direct s) (g_viol s))
              | Clear =>   (* 287-289 *)
                  Some (mkState (s_lock s) (fun _ => None) (s_inproc s) (s_heap s) (s_next s)
                                (s_world s) (ths None)
                                [s_world s] [] (g_dead s) (g_overlap s || busy n) (g_direct s)
                                (g_viol s))
              | SetWorld w =>
                  Some (mkState (s_lock s) (s_cache s) (s_inproc s) (s_heap s) (s_next s)
                                w (ths None)
                                (w :: g_worlds s) (g_starts s) (g_dead s) (g_overlap s) (g_direct s) (g_viol s))
              end
          end
      end.
  End Step.

  (** Executions: in each step some thread that can move does.
      Any interleaving of threads; no counterpart in /repo. *)
  Inductive exec : state -> state -> Prop :=
  | exec_refl : forall s, exec s s
  | exec_step : forall s1 s2 s3 i, exec s1 s2 -> i < n -> step i s2 = Some s3 -> exec s1 s3.

  (** A given schedule: the threads that move, in order ([None] if one cannot).
      No counterpart in /repo. *)
  Fixpoint run (sched : list nat) (s : state) : option state :=
    match sched with
    | [] => Some s
    | i :: rest =>
        if i <? n then match step i s with Some s' => run rest s' | None => None end else None
    end.

  (** A thread has finished all its calls. No counterpart in /repo. *)
  Definition idle (t : thread) : Prop := th_prog t = [] /\ th_at t = None.
End Cache.

Arguments mkEntry {V T W}.
Arguments en_arg {V T W}.
Arguments en_answer {V T W}.
Arguments en_worlds {V T W}.
