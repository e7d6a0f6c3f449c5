(** * The registry of caches: model of /repo/src/caching.cpp:15-75

    Cached functions and values register themselves when constructed and unregister when
    destroyed.  An address is a number.  Simplifications: one thread; a cache is just its
    contents; the order in which [std::unordered_map] is traversed is unspecified and so is
    an argument of the traversal.  Use of the registry lock before it is initialised, locking
    it twice, and any access to a destroyed cache are undefined: [None]. *)
From Coq Require Import List Bool Arith.
From Verif Require Import Cache.
Import ListNotations.

Section Registry.
  Context {K T : Type}.

  (** What a cache holds: caching.h:294 [cache] of a CachedFunction; caching.h:356-357
      [cache_valid], [cached_value] of a CachedValue. *)
  Inductive contents : Type :=
  | CFun (entries : list (K * T))
  | CVal (valid : bool) (value : T).

  (** caching.h:287-289 and 487-489 [ClearCache]. *)
  Definition clear_cache (c : contents) : contents :=
    match c with
    | CFun _ => CFun []
    | CVal _ v => CVal false v
    end.

  (** caching.cpp:23 [caches] (its keys, in any order), 28 [lock] ([None]: not initialised,
      [Some true]: held), and the live caches. *)
  Record reg : Type := mkReg {
    r_caches : list nat;
    r_lock : option bool;
    r_live : nat -> option contents
  }.

  (** The start of the program. caching.cpp 23-28. *)
  Definition rinit : reg := mkReg [] None (fun _ => None).

  (** omp_set_lock, omp_unset_lock on the registry lock. caching.cpp 49, 59, 69. *)
  Definition rlock (r : reg) : option reg :=
    match r_lock r with
    | Some false => Some (mkReg (r_caches r) (Some true) (r_live r))
    | _ => None
    end.
  (** As above (caching.cpp 51, 61, 73). *)
  Definition runlock (r : reg) : option reg :=
    match r_lock r with
    | Some true => Some (mkReg (r_caches r) (Some false) (r_live r))
    | _ => None
    end.

  (** caching.cpp:35-42 [Init_Caching]: only the first call initialises. *)
  Definition init_caching (r : reg) : reg :=
    match r_lock r with
    | None => mkReg (r_caches r) (Some false) (r_live r)
    | Some _ => r
    end.

  (** Sequencing of statements; no counterpart of its own in /repo. *)
  Definition obind {A B} (x : option A) (f : A -> option B) : option B :=
    match x with Some a => f a | None => None end.

  (** caching.cpp:48-52 [Add_Cache]: [caches[cache] = clear_func]. *)
  Definition add_cache (a : nat) (r : reg) : option reg :=
    obind (rlock r) (fun r =>
    runlock (mkReg (if in_dec Nat.eq_dec a (r_caches r) then r_caches r else a :: r_caches r)
                   (r_lock r) (r_live r))).

  (** caching.cpp:58-62 [Remove_Cache]. *)
  Definition remove_cache (a : nat) (r : reg) : option reg :=
    obind (rlock r) (fun r =>
    runlock (mkReg (remove Nat.eq_dec a (r_caches r)) (r_lock r) (r_live r))).

  (** One registered clear function: [this->ClearCache()] (caching.h:127-128, 399-400). *)
  Definition clear_at (a : nat) (r : reg) : option reg :=
    match r_live r a with
    | None => None
    | Some c => Some (mkReg (r_caches r) (r_lock r) (upd Nat.eq_dec (r_live r) a (Some (clear_cache c))))
    end.
  (** The loop of caching.cpp 70-72. *)
  Fixpoint clear_each (order : list nat) (r : reg) : option reg :=
    match order with
    | [] => Some r
    | a :: rest => obind (clear_at a r) (clear_each rest)
    end.

  (** caching.cpp:68-74 [Clear_Caches]; [order]: how the map happens to be traversed (a
      rearrangement of its keys). *)
  Definition clear_caches (order : list nat -> list nat) (r : reg) : option reg :=
    obind (rlock r) (fun r => obind (clear_each (order (r_caches r)) r) runlock).

  (** What a program does with caches; sources at each. *)
  Inductive rop : Type :=
  | RNew (a : nat) (c : contents)   (* caching.h:106-129, 374-401, at a free address *)
  | RDelete (a : nat)               (* caching.h:134-136, 406-408 *)
  | RStore (a : nat) (c : contents) (* a call: the contents become [c] *)
  | RClear (a : nat)                (* ClearCache on one object *)
  | RClearAll (order : list nat -> list nat). (* Clear_Caches *)

  (** One operation; sources at [rop]. *)
  Definition rstep (r : reg) (o : rop) : option reg :=
    match o with
    | RNew a c =>
        let r := init_caching r in
        add_cache a (mkReg (r_caches r) (r_lock r) (upd Nat.eq_dec (r_live r) a (Some c)))
    | RDelete a =>
        obind (remove_cache a r) (fun r =>
        Some (mkReg (r_caches r) (r_lock r) (upd Nat.eq_dec (r_live r) a None)))
    | RStore a c =>
        match r_live r a with
        | Some _ => Some (mkReg (r_caches r) (r_lock r) (upd Nat.eq_dec (r_live r) a (Some c)))
        | None => None
        end
    | RClear a => clear_at a r
    | RClearAll order => clear_caches order r
    end.

  (** Operations one after the other; no counterpart in /repo. *)
  Fixpoint rrun (ops : list rop) (r : reg) : option reg :=
    match ops with
    | [] => Some r
    | o :: rest => obind (rstep r o) (rrun rest)
    end.
End Registry.

Arguments contents : clear implicits.
Arguments reg : clear implicits.
Arguments rop : clear implicits.
