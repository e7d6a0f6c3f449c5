(** Model of the [Replaceable] template: change notification and replacement
    of shared objects.

    Source: /repo/src/replaceable.h (whole file); the clients' side follows the
    way every class of the library uses it, for example
    /repo/src/relationships.cpp lines 48-57 (register) and
    /repo/src/relationships.h lines 42-44 (unregister).

    Simplifications:
    - [id_counter] is an unbounded natural number (a C++ [int] would overflow
      after 2^31 registrations on one object);
    - one thread (the lock in lines 42, 85, 93, 99, 107 is not modelled);
    - a client's pair of [std::function] objects is an opaque token of type
      [A]; what running it does is the business of whoever uses this file. *)

Require Import List Arith Bool.
Import ListNotations.

Section Map.

Variable A : Type.

(** /repo/src/replaceable.h 65: [std::map<int, callback_struct> callbacks],
    as the list of its (key, value) pairs in iteration order. *)
Definition cbmap := list (nat * A).

(** /repo/src/replaceable.h 87: [callbacks[id] = {changed, replace}]: inserts
    at the key's place, or overwrites what is there. *)
Fixpoint put (k : nat) (a : A) (l : cbmap) : cbmap :=
  match l with
  | [] => [(k, a)]
  | (k', b) :: r =>
      if k <? k' then (k, a) :: l
      else if k =? k' then (k, a) :: r
      else (k', b) :: put k a r
  end.

(** /repo/src/replaceable.h 94: [callbacks.erase(id)]. *)
Fixpoint del (k : nat) (l : cbmap) : cbmap :=
  match l with
  | [] => []
  | (k', b) :: r => if k =? k' then r else (k', b) :: del k r
  end.

(** /repo/src/replaceable.h 65 and 73: the two data members. *)
Record robj := Rep { r_next : nat; r_cbs : cbmap }.

(** /repo/src/replaceable.h 77-80: the constructor. *)
Definition new_robj : robj := Rep 0 [].

(** /repo/src/replaceable.h 82-90: [add_callbacks]; the id it returns. *)
Definition add_callbacks (a : A) (r : robj) : robj * nat :=
  let id := S (r_next r) in
  (Rep id (put id a (r_cbs r)), id).

(** /repo/src/replaceable.h 92-96: [remove_callbacks]. *)
Definition remove_callbacks (id : nat) (r : robj) : robj :=
  Rep (r_next r) (del id (r_cbs r)).

(** /repo/src/replaceable.h 98-104: the actions [notify_change] runs, in
    order.  The same list is what [replace] (106-114) runs. *)
Definition clients (r : robj) : list A := map snd (r_cbs r).

(** /repo/src/replaceable.h 108: [replacement->callbacks = callbacks]: the
    replacement's own callbacks are overwritten, its id counter is kept. *)
Definition take_over (old replacement : robj) : robj :=
  Rep (r_next replacement) (r_cbs old).

(** /repo/src/replaceable.h 109-112: the old object is left with no
    callbacks. *)
Definition dismiss (old : robj) : robj := Rep (r_next old) [].

End Map.

Arguments put {A}. Arguments del {A}. Arguments Rep {A}. Arguments r_next {A}.
Arguments r_cbs {A}. Arguments new_robj {A}. Arguments add_callbacks {A}.
Arguments remove_callbacks {A}. Arguments clients {A}.
Arguments take_over {A}. Arguments dismiss {A}.

(** ** Several objects and their clients

    Objects and clients are numbered.  Every object exists from the start with
    no clients, as if just constructed. *)

(** Function update. No counterpart in /repo. *)
Definition upd {B} (f : nat -> B) (k : nat) (v : B) : nat -> B :=
  fun x => if x =? k then v else f x.

(** A client holds a pointer to the object it uses and the id it was given:
    [f] and [callback_id] at /repo/src/relationships.cpp 48-49, [base_rate] and
    [base_rate_callback_id] at 242-244, and so on. *)
Record rsys := Sys {
  objs : nat -> robj nat;
  held : nat -> option (nat * nat)    (* client -> (object, id) *)
}.

(** Nothing registered yet. As after replaceable.h 77-80. *)
Definition rsys0 : rsys := Sys (fun _ => new_robj) (fun _ => None).

(** What a program can do. replaceable.h 82-114. *)
Inductive rop :=
| RAdd (c o : nat)        (* a client is constructed on an object *)
| RLeave (c : nat)        (* a client is destroyed *)
| RNotify (o : nat)       (* the object announces a change *)
| RReplace (o o' : nat).  (* o->replace(o') *)

(** An action run in a client: its change action, or its replace action with
    the replacement it is handed. replaceable.h 101, 110. *)
Inductive revent :=
| Changed (c : nat)
| Replaced (c o' : nat).

(** The replace action of each client in turn stores the new pointer
    (/repo/src/relationships.cpp 54: [this->f = new_f]); the id is kept. *)
Definition repoint (cs : list nat) (o' : nat) (h : nat -> option (nat * nat))
  : nat -> option (nat * nat) :=
  fold_left (fun h c =>
    match h c with
    | Some (_, id) => upd h c (Some (o', id))
    | None => h
    end) cs h.

(** One operation: the new state and the actions it ran, in order. *)
Definition rstep (s : rsys) (op : rop) : rsys * list revent :=
  match op with
  | RAdd c o =>
      (* replaceable.h 82-90, called from the client's constructor *)
      let (r, id) := add_callbacks c (objs s o) in
      (Sys (upd (objs s) o r) (upd (held s) c (Some (o, id))), [])
  | RLeave c =>
      (* relationships.h 42-44: the client's destructor *)
      match held s c with
      | Some (o, id) =>
          (Sys (upd (objs s) o (remove_callbacks id (objs s o)))
               (upd (held s) c None), [])
      | None => (s, [])
      end
  | RNotify o =>
      (* replaceable.h 98-104 *)
      (s, map Changed (clients (objs s o)))
  | RReplace o o' =>
      (* replaceable.h 106-114: the replacement takes the callbacks over, each
         replace action runs and is erased from the old object *)
      let cs := clients (objs s o) in
      let os := upd (objs s) o' (take_over (objs s o) (objs s o')) in
      let os := upd os o (dismiss (os o)) in
      (Sys os (repoint cs o' (held s)), map (fun c => Replaced c o') cs)
  end.

(** A history from the empty system; the actions run by each operation.
    No counterpart in /repo. *)
Fixpoint rrun (s : rsys) (h : list rop) : rsys * list (list revent) :=
  match h with
  | [] => (s, [])
  | op :: r =>
      let (s', ev) := rstep s op in
      let (s'', evs) := rrun s' r in (s'', ev :: evs)
  end.

(** The state alone. No counterpart in /repo. *)
Definition rafter (h : list rop) : rsys := fst (rrun rsys0 h).
