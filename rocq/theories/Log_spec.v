(** Where log messages should go: /repo/src/pyslat.py 291-308, slat-lang.org.  To the
    terminal (standard error) unless switched off since, once; to the file named
    last. *)

Require Import List Bool String Permutation.
From Verif Require Import Log.
Import ListNotations.

(** The switch: on at first, then as last set. *)
Inductive switched : list command -> bool -> Prop :=
| Sw_start : switched [] true
| Sw_set : forall h b, switched (h ++ [ToStdErr b]) b
| Sw_file : forall h p b, switched h b -> switched (h ++ [ToFile p]) b.

(** The file: none at first, then as last set. *)
Inductive filed : list command -> option string -> Prop :=
| Fi_start : filed [] None
| Fi_set : forall h p, filed (h ++ [ToFile p]) (Some p)
| Fi_std : forall h b f, filed h f -> filed (h ++ [ToStdErr b]) f.

(** The places of a message. *)
Definition places (n : nat) (f : option string) : list place :=
  repeat Stderr n ++ match f with Some p => [File p] | None => [] end.

(** The full claim. *)
Definition logs_right : Prop :=
  forall h b f, switched h b -> filed h f -> Permutation (message (session h)) (places (if b then 1 else 0) f).

(** How often 'on' was said after the first 'off'; nothing if it was never switched
    off. *)
Definition ons (h : list command) : nat :=
  List.length (filter (fun c => match c with ToStdErr true => true | _ => false end) h).
Inductive after_off : list command -> list command -> Prop :=
| Off : forall a b, ~ In (ToStdErr false) a -> after_off (a ++ ToStdErr false :: b) b.
