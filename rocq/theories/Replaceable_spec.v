(** What users of [Replaceable] expect, without callback maps or ids. *)

Require Import List Arith Bool.
From Verif Require Import Replaceable.
Import ListNotations.

(** Which object each client uses, according to the operations performed: the
    one it registered with, or the last one to replace it. *)
Definition uses_step (u : nat -> option nat) (op : rop) : nat -> option nat :=
  match op with
  | RAdd c o => fun x => if x =? c then Some o else u x
  | RLeave c => fun x => if x =? c then None else u x
  | RNotify _ => u
  | RReplace o o' => fun x =>
      match u x with
      | Some p => if p =? o then Some o' else Some p
      | None => None
      end
  end.

Definition uses (h : list rop) : nat -> option nat :=
  fold_left uses_step h (fun _ => None).

(** Clients register when they are not registered and leave when they are. *)
Fixpoint sensible_from (u : nat -> option nat) (h : list rop) : Prop :=
  match h with
  | [] => True
  | op :: r =>
      match op with
      | RAdd c _ => u c = None
      | RLeave c => u c <> None
      | _ => True
      end /\ sensible_from (uses_step u op) r
  end.

Definition sensible (h : list rop) : Prop := sensible_from (fun _ => None) h.

(** Objects that have replaced another one. *)
Fixpoint replacements (h : list rop) : list nat :=
  match h with
  | [] => []
  | RReplace _ o' :: r => o' :: replacements r
  | _ :: r => replacements r
  end.

(** A careful history: an object used as a replacement has no clients at that
    time, is not the object replaced, and no client registers with it
    afterwards. *)
Fixpoint careful_from (u : nat -> option nat) (past : list nat)
                      (h : list rop) : Prop :=
  match h with
  | [] => True
  | op :: r =>
      match op with
      | RAdd _ o => ~ In o past
      | RReplace o o' => o <> o' /\ forall c, u c <> Some o'
      | _ => True
      end
      /\ careful_from (uses_step u op)
           (match op with RReplace _ o' => o' :: past | _ => past end) r
  end.

Definition careful (h : list rop) : Prop := careful_from (fun _ => None) [] h.

(** The actions the last operation of a history runs. *)
Definition actions (h : list rop) (op : rop) : list revent :=
  snd (rstep (rafter h) op).

(** A history about registrations and removals on one object only. *)
Definition only_on (o : nat) (h : list rop) : Prop :=
  forall op, In op h ->
    match op with
    | RAdd _ o' => o' = o
    | RLeave _ => True
    | RNotify o' => o' = o
    | RReplace _ _ => False
    end.

(** The clients a history leaves registered, in the order in which they
    registered. *)
Definition in_order_step (l : list nat) (op : rop) : list nat :=
  match op with
  | RAdd c _ => l ++ [c]
  | RLeave c => filter (fun x => negb (x =? c)) l
  | _ => l
  end.

Definition in_order (h : list rop) : list nat := fold_left in_order_step h [].

(** The ids a history hands out, in order. *)
Fixpoint ids_from (s : rsys) (h : list rop) : list nat :=
  match h with
  | [] => []
  | op :: r =>
      match op with
      | RAdd c o => [snd (add_callbacks c (objs s o))]
      | _ => []
      end ++ ids_from (fst (rstep s op)) r
  end.

Definition ids_handed_out (h : list rop) : list nat := ids_from rsys0 h.

(** The chain o -> o1 -> o2 -> ... *)
Fixpoint chain (o : nat) (os : list nat) : list rop :=
  match os with
  | [] => []
  | o' :: r => RReplace o o' :: chain o' r
  end.

(** An object no operation of a history mentions. *)
Definition unused (p : nat) (h : list rop) : Prop :=
  forall op, In op h ->
    match op with
    | RAdd _ o => o <> p
    | RLeave _ => True
    | RNotify o => o <> p
    | RReplace o o' => o <> p /\ o' <> p
    end.
