(** * Diagnostic context

    Source: /repo/src/context.cpp and context.h.  Each of [PushText], [PopText] and
    [GetText] holds the lock throughout (context.cpp 26-112, 129-151, 161-188), so it
    is one step; the steps of different threads interleave freely.  Left out:
    [Initialise] and [GetInstance] (7-22), which the module runs before anything else
    (pyslatcore.cpp 18), and [DumpContext] (47-88), which is not called.

    A text is a function that writes to a stream (context.h 35); here it is a token of
    any type [X]. *)
From Coq Require Import List Arith Bool.
Import ListNotations.

Section Context.
Context {X : Type}.

(** ** The tree of contexts *)

(** [Context] (context.h 24-40): [text_stack], innermost last, and [threads], where
    [None] is a null pointer. *)
Inductive ctx := Ctx (texts : list X) (threads : list (option ctx)).

(** The members (context.h 35-36). *)
Definition ctx_texts (c : ctx) : list X := let (x, _) := c in x.
(** As above (context.h 36). *)
Definition ctx_threads (c : ctx) : list (option ctx) := let (_, l) := c in l.

(** [std::make_shared<Context>()] (context.cpp 20, 36). *)
Definition new_ctx : ctx := Ctx [] [].

(** Assignment to an element of a vector (context.cpp 36). *)
Fixpoint assign {A : Type} (i : nat) (x : A) (l : list A) : list A :=
  match l, i with
  | [], _ => []
  | _ :: r, O => x :: r
  | y :: r, S i => y :: assign i x r
  end.

(** What OpenMP tells a thread about itself: for each level from 0 on
    [omp_get_ancestor_thread_num] and [omp_get_team_size] (context.cpp 30-33). *)
Definition nest := list (nat * nat).

(** [omp_get_active_level] (context.cpp 29, 30, 174): the number of enclosing regions
    with more than one thread. *)
Definition active_level (n : nest) : nat := length (filter (fun p => Nat.ltb 1 (snd p)) n).

(** The levels [LockContext] visits (context.cpp 29-31). *)
Definition lock_path (n : nest) : nest :=
  match active_level n with
  | O => []
  | a => firstn (S a) n
  end.

(** The descent in [LockContext] (context.cpp 30-42) followed by [f] on the context it
    returns; [None]: an element beyond the end of [threads] is accessed (35). *)
Fixpoint update (f : ctx -> ctx) (path : nest) (c : ctx) : option ctx :=
  match path with
  | [] => Some (f c)
  | (num, size) :: path =>
      let threads := match ctx_threads c with [] => repeat None size | l => l end in
      match nth_error threads num with
      | None => None
      | Some t =>
          let child := match t with None => new_ctx | Some t => t end in
          match update f path child with
          | None => None
          | Some child => Some (Ctx (ctx_texts c) (assign num (Some child) threads))
          end
      end
  end.

(** [PushText] (context.cpp 92-95). *)
Definition push (x : X) (c : ctx) : ctx := Ctx (ctx_texts c ++ [x]) [].

(** [PopText] (context.cpp 145-150); if there is nothing to remove it only prints a
    message. *)
Definition pop (c : ctx) : ctx :=
  match ctx_texts c with
  | [] => c
  | l => Ctx (removelast l) []
  end.

(** A text written by [GetText], with the length of the separator after it. *)
Definition line := (X * nat)%type.

(** The loop over the levels in [GetText] (context.cpp 174-187); [None]: an element
    beyond the end of [threads] is accessed (177). *)
Fixpoint read (separator : nat) (path : list nat) (c : ctx) : option (list line) :=
  match path with
  | [] => Some []
  | num :: path =>
      match ctx_threads c with
      | [] => Some []
      | l => match nth_error l num with
             | None => None
             | Some None => Some []
             | Some (Some c) =>
                 match read (S separator) path c with
                 | None => None
                 | Some r => Some (map (fun x => (x, S separator)) (ctx_texts c) ++ r)
                 end
             end
      end
  end.

(** [GetText] (context.cpp 154-192). *)
Definition get_text (n : nest) (c : ctx) : option (list line) :=
  match read 1 (map fst (firstn (S (active_level n)) n)) c with
  | None => None
  | Some r => Some (map (fun x => (x, 1)) (ctx_texts c) ++ r)
  end.

(** ** Threads

    Not code of SLAT but how OpenMP runs it: a thread has open scopes
    ([TempContext], context.h 42-55) and may have met a parallel region (such as
    comp_group.cpp 267, structure.cpp 87), in which case it waits for the threads of
    that region; it is itself number 0 of them, which here is a thread of its own. *)
Inductive thread := Thread (scopes : list X) (region : list thread).

(** What a thread may do: construct or destroy a [TempContext] (context.h 44-54),
    meet a parallel region with [n] threads, reach the end of one. *)
Inductive action := Open (x : X) | Close | Fork (n : nat) | Join.

(** The thread at a position does something: [None] if it cannot (context.h 42-55;
    OpenMP). *)
Definition act (a : action) (t : thread) : option thread :=
  match a, t with
  | Open x, Thread s [] => Some (Thread (s ++ [x]) [])
  | Close, Thread (x :: s) [] => Some (Thread (removelast (x :: s)) [])
  | Fork (S n), Thread s [] => Some (Thread s (repeat (Thread [] []) (S n)))
  | Join, Thread s (u :: l) =>
      if forallb (fun u => match u with Thread [] [] => true | _ => false end) (u :: l) then Some (Thread s []) else None
  | _, _ => None
  end.

(** The same for the thread at a position: the number in each region from outside
    (OpenMP). *)
Fixpoint act_at (a : action) (pos : list nat) (t : thread) : option thread :=
  match pos, t with
  | [], _ => act a t
  | i :: pos, Thread s l =>
      match nth_error l i with
      | None => None
      | Some u => match act_at a pos u with
                  | None => None
                  | Some u => Some (Thread s (assign i u l))
                  end
      end
  end.

(** The enclosing regions of a position, from level 1 on (OpenMP). *)
Fixpoint enclosing (pos : list nat) (t : thread) : nest :=
  match pos, t with
  | [], _ => []
  | i :: pos, Thread _ l =>
      (i, length l) :: match nth_error l i with None => [] | Some u => enclosing pos u end
  end.

(** What OpenMP tells the thread: level 0 is the initial thread (OpenMP). *)
Definition nest_of (pos : list nat) (t : thread) : nest := (0, 1) :: enclosing pos t.

(** The threads and the context. *)
Definition state := (thread * ctx)%type.

(** Before anything has happened (context.cpp 11). *)
Definition start : state := (Thread [] [], new_ctx).

(** A step: it happens, cannot happen, or accesses a vector beyond its end. *)
Inductive stepped := Next (s : state) | Impossible | OutOfRange.

(** A step of the thread at [pos] (context.h 44-54). *)
Definition step (s : state) (pos : list nat) (a : action) : stepped :=
  let (t, c) := s in
  match act_at a pos t with
  | None => Impossible
  | Some t' =>
      let path := lock_path (nest_of pos t) in
      match (match a with
             | Open x => update (push x) path c
             | Close => update pop path c
             | _ => Some c
             end) with
      | None => OutOfRange
      | Some c' => Next (t', c')
      end
  end.

(** Several steps (any interleaving). *)
Fixpoint steps (s : state) (l : list (list nat * action)) : stepped :=
  match l with
  | [] => Next s
  | (pos, a) :: l => match step s pos a with Next s => steps s l | r => r end
  end.

(** What [GetText] returns to the thread at [pos]. *)
Definition text_at (s : state) (pos : list nat) : option (list line) := get_text (nest_of pos (fst s)) (snd s).

End Context.
Arguments ctx X : clear implicits.
Arguments thread X : clear implicits.
Arguments action X : clear implicits.
Arguments state X : clear implicits.
Arguments stepped X : clear implicits.
