(** * Cached values: model of CachedValue (/repo/src/caching.h:346-490)

    As in [Cache.v]: threads run programs, every access to shared data and every lock
    operation is one step, memory is sequentially consistent.  Simplifications:
    - [hits], [total_calls] and [name] (362-364) are left out;
    - the calculation reads a shared "world" at one instant; it may throw;
    - releasing the waiting lock without holding it, undefined in OpenMP, is recorded as a
      violation and leaves the lock free (what common implementations do). *)
From Coq Require Import List Bool Arith.
From Verif Require Import Cache.
Import ListNotations.

Section CVal.
  Context {T W : Type}.
  (** The calculation given to the constructor (374-401); [None]: it throws. *)
  Variable func : W -> option T.
  (** The unset contents of [cached_value] (357). *)
  Variable dflt : T.
  (** The thread that constructed the object, and so holds [waiting_lock] (388). *)
  Variable ctor : nat.
  (** Number of threads. *)
  Variable n : nat.

  (** Misuse of the two locks (caching.h 425-479). *)
  Inductive vviolation : Type :=
  | VVDuplicate           (* 458-461 *)
  | VVLock                (* [lock] released by a thread not holding it *)
  | VVWaitOther           (* [waiting_lock], held by another thread, released *)
  | VVWaitFree.           (* [waiting_lock], held by nobody, released *)

  (** Where a thread is inside [operator()] (415-482). *)
  Inductive vlabel : Type :=
  | L0                    (* 425 set lock *)
  | L1                    (* 433 !cache_valid ? *)
  | L2                    (* 439 in_process ? *)
  | LW0                   (* 440 unset lock *)
  | LW1                   (* 441 set waiting_lock *)
  | LW2                   (* 442 unset waiting_lock *)
  | LW3                   (* 443 set lock *)
  | LC0                   (* 448 in_process = true *)
  | LC1                   (* 449 unset lock *)
  | LC2                   (* 451 the calculation starts *)
  | LC2b                  (* 451 the calculation ends or throws *)
  | LC3 (r : T)           (* 453 set lock *)
  | LC4 (r : T)           (* 458 DUPLICATE ? *)
  | LC5 (r : T)           (* 464 cached_value = result *)
  | LC6                   (* 465 cache_valid = true *)
  | LC7                   (* 466 in_process = false *)
  | LC8                   (* 467 unset waiting_lock *)
  | LRead                 (* 478 result = cached_value *)
  | LUnl (r : T).         (* 479 unset lock, return *)

  (** What a thread does next: caching.h 415, 487; a change of what the calculation
      reads. *)
  Inductive vop : Type := VCall | VClear | VSetWorld (w : W).

  (** A finished call: its answer ([None]: an exception) and, as a ghost, the worlds in
      force since the last clear. No counterpart in /repo. *)
  Record ventry : Type := mkVEntry { ve_answer : option T; ve_worlds : list W }.
  (** A thread, as in Cache.v; no counterpart in /repo. *)
  Record vthread : Type := mkVTh {
    vt_prog : list vop; vt_at : option vlabel; vt_log : list ventry
  }.

  (** caching.h:348-364, the threads, and ghosts: worlds and calculations started since the
      last clear, whether the first calculation is complete, whether a calculation threw,
      whether there was a clear, whether one was concurrent with a call, violations. *)
  Record vstate : Type := mkV {
    c_lock : option nat; c_wait : option nat; c_inproc : bool; c_valid : bool; c_value : T;
    c_world : W; c_ths : nat -> vthread;
    h_worlds : list W; h_starts : nat; h_done : bool; h_dead : bool;
    h_cleared : bool; h_overlap : bool; h_viol : list vviolation
  }.

  (** caching.h:374-401. *)
  Definition vinit (w : W) (progs : nat -> list vop) : vstate :=
    mkV None (Some ctor) false false dflt w (fun i => mkVTh (progs i) None [])
        [w] 0 false false false false [].

  Section Step.
    Variable i : nat.       (* the thread that moves *)

    (** Pieces of steps. caching.h 415-482. *)
    Definition vset_th (t : vthread) (s : vstate) : vstate :=
      mkV (c_lock s) (c_wait s) (c_inproc s) (c_valid s) (c_value s) (c_world s)
          (upd Nat.eq_dec (c_ths s) i t)
          (h_worlds s) (h_starts s) (h_done s) (h_dead s) (h_cleared s) (h_overlap s) (h_viol s).
    (** Go on to the next statement of caching.h 425-479. *)
    Definition vgoto (l : vlabel) (s : vstate) : vstate :=
      vset_th (mkVTh (vt_prog (c_ths s i)) (Some l) (vt_log (c_ths s i))) s.
    (** [return] (caching.h 480): the call is logged. *)
    Definition vreturn (r : option T) (s : vstate) : vstate :=
      vset_th (mkVTh (vt_prog (c_ths s i)) None
                     (vt_log (c_ths s i) ++ [mkVEntry r (h_worlds s)])) s.
    (** Field update (caching.h 348-364). *)
    Definition vset_lock (l : option nat) (s : vstate) : vstate :=
      mkV l (c_wait s) (c_inproc s) (c_valid s) (c_value s) (c_world s) (c_ths s)
          (h_worlds s) (h_starts s) (h_done s) (h_dead s) (h_cleared s) (h_overlap s) (h_viol s).
    (** Field update (caching.h 348-364). *)
    Definition vset_wait (l : option nat) (s : vstate) : vstate :=
      mkV (c_lock s) l (c_inproc s) (c_valid s) (c_value s) (c_world s) (c_ths s)
          (h_worlds s) (h_starts s) (h_done s) (h_dead s) (h_cleared s) (h_overlap s) (h_viol s).
    (** Field update (caching.h 348-364). *)
    Definition vset_inproc (b : bool) (s : vstate) : vstate :=
      mkV (c_lock s) (c_wait s) b (c_valid s) (c_value s) (c_world s) (c_ths s)
          (h_worlds s) (h_starts s) (h_done s) (h_dead s) (h_cleared s) (h_overlap s) (h_viol s).
    (** Field update (caching.h 348-364). *)
    Definition vset_valid (b : bool) (s : vstate) : vstate :=
      mkV (c_lock s) (c_wait s) (c_inproc s) b (c_value s) (c_world s) (c_ths s)
          (h_worlds s) (h_starts s) (h_done s) (h_dead s) (h_cleared s) (h_overlap s) (h_viol s).
    (** Field update (caching.h 348-364). *)
    Definition vset_value (t : T) (s : vstate) : vstate :=
      mkV (c_lock s) (c_wait s) (c_inproc s) (c_valid s) t (c_world s) (c_ths s)
          (h_worlds s) (h_starts s) (h_done s) (h_dead s) (h_cleared s) (h_overlap s) (h_viol s).
    (** Ghost update; no counterpart in /repo. *)
    Definition vstart (s : vstate) : vstate :=
      mkV (c_lock s) (c_wait s) (c_inproc s) (c_valid s) (c_value s) (c_world s) (c_ths s)
          (h_worlds s) (S (h_starts s)) (h_done s) (h_dead s) (h_cleared s) (h_overlap s) (h_viol s).
    (** Ghost update; no counterpart in /repo. *)
    Definition vdone (s : vstate) : vstate :=
      mkV (c_lock s) (c_wait s) (c_inproc s) (c_valid s) (c_value s) (c_world s) (c_ths s)
          (h_worlds s) (h_starts s) true (h_dead s) (h_cleared s) (h_overlap s) (h_viol s).
    (** Ghost update; no counterpart in /repo. *)
    Definition vdie (s : vstate) : vstate :=
      mkV (c_lock s) (c_wait s) (c_inproc s) (c_valid s) (c_value s) (c_world s) (c_ths s)
          (h_worlds s) (h_starts s) (h_done s) true (h_cleared s) (h_overlap s) (h_viol s).
    (** Ghost update; no counterpart in /repo. *)
    Definition vviolate (x : vviolation) (s : vstate) : vstate :=
      mkV (c_lock s) (c_wait s) (c_inproc s) (c_valid s) (c_value s) (c_world s) (c_ths s)
          (h_worlds s) (h_starts s) (h_done s) (h_dead s) (h_cleared s) (h_overlap s)
          (x :: h_viol s).

    (** omp_unset_lock(&lock), omp_unset_lock(&waiting_lock).
        caching.h 440, 449, 479; 442, 467. *)
    Definition vunlock (s : vstate) : vstate :=
      match c_lock s with
      | Some j => if Nat.eq_dec j i then vset_lock None s else vviolate VVLock (vset_lock None s)
      | None => vviolate VVLock s
      end.
    (** As above (caching.h 442, 467). *)
    Definition vunwait (s : vstate) : vstate :=
      match c_wait s with
      | Some j => if Nat.eq_dec j i then vset_wait None s
                  else vviolate VVWaitOther (vset_wait None s)
      | None => vviolate VVWaitFree s
      end.

    (** caching.h:415-482; [None]: the thread waits for a lock. *)
    Definition vcall_step (s : vstate) (l : vlabel) : option vstate :=
      match l with
      | L0 => match c_lock s with
              | None => Some (vgoto L1 (vset_lock (Some i) s))
              | Some _ => None
              end
      | L1 => Some (vgoto (if c_valid s then LRead else L2) s)
      | L2 => Some (vgoto (if c_inproc s then LW0 else LC0) s)
      | LW0 => Some (vgoto LW1 (vunlock s))
      | LW1 => match c_wait s with
               | None => Some (vgoto LW2 (vset_wait (Some i) s))
               | Some _ => None
               end
      | LW2 => Some (vgoto LW3 (vunwait s))
      | LW3 => match c_lock s with
               | None => Some (vgoto LRead (vset_lock (Some i) s))
               | Some _ => None
               end
      | LC0 => Some (vgoto LC1 (vset_inproc true s))
      | LC1 => Some (vgoto LC2 (vunlock s))
      | LC2 => Some (vgoto LC2b (vstart s))
      | LC2b => match func (c_world s) with
                | Some r => Some (vgoto (LC3 r) s)
                | None => Some (vreturn None (vdie s))
                end
      | LC3 r => match c_lock s with
                 | None => Some (vgoto (LC4 r) (vset_lock (Some i) s))
                 | Some _ => None
                 end
      | LC4 r => Some (vgoto (LC5 r) (if c_valid s then vviolate VVDuplicate s else s))
      | LC5 r => Some (vgoto LC6 (vset_value r s))
      | LC6 => Some (vgoto LC7 (vset_valid true s))
      | LC7 => Some (vgoto LC8 (vset_inproc false s))
      | LC8 => Some (vgoto LRead (vdone (vunwait s)))
      | LRead => Some (vgoto (LUnl (c_value s)) s)
      | LUnl r => Some (vreturn (Some r) (vunlock s))
      end.

    (** Some thread is inside a call. Ghost; no counterpart in /repo. *)
    Fixpoint vbusy (s : vstate) (m : nat) : bool :=
      match m with
      | O => false
      | S j => (match vt_at (c_ths s j) with Some _ => true | None => false end) || vbusy s j
      end.

    (** The next step of thread [i]; [None]: it waits, or has nothing left to do.
        caching.h 415-489. *)
    Definition vstep (s : vstate) : option vstate :=
      match vt_at (c_ths s i) with
      | Some l => vcall_step s l
      | None =>
          match vt_prog (c_ths s i) with
          | [] => None
          | o :: rest =>
              let th x := mkVTh rest x (vt_log (c_ths s i)) in
              match o with
              | VCall => Some (vset_th (th (Some L0)) s)
              | VClear =>   (* 487-489 *)
                  Some (mkV (c_lock s) (c_wait s) (c_inproc s) false (c_value s) (c_world s)
                            (upd Nat.eq_dec (c_ths s) i (th None))
                            [c_world s] 0 (h_done s) (h_dead s) true (h_overlap s || vbusy s n)
                            (h_viol s))
              | VSetWorld w =>
                  Some (mkV (c_lock s) (c_wait s) (c_inproc s) (c_valid s) (c_value s) w
                            (upd Nat.eq_dec (c_ths s) i (th None))
                            (w :: h_worlds s) (h_starts s) (h_done s) (h_dead s) (h_cleared s)
                            (h_overlap s) (h_viol s))
              end
          end
      end.
  End Step.

  (** Executions: in each step some thread that can move does.
      Any interleaving of threads; no counterpart in /repo. *)
  Inductive vexec : vstate -> vstate -> Prop :=
  | vexec_refl : forall s, vexec s s
  | vexec_step : forall s1 s2 s3 i, vexec s1 s2 -> i < n -> vstep i s2 = Some s3 -> vexec s1 s3.

  (** A given schedule. No counterpart in /repo. *)
  Fixpoint vrun (sched : list nat) (s : vstate) : option vstate :=
    match sched with
    | [] => Some s
    | i :: rest =>
        if i <? n then match vstep i s with Some s' => vrun rest s' | None => None end else None
    end.

  (** A thread has finished all its calls; no counterpart in /repo. *)
  Definition vidle (t : vthread) : Prop := vt_prog t = [] /\ vt_at t = None.
End CVal.
