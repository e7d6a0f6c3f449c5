(** * What a history of caches means, without a registry

    [live ops a]: the contents of the cache at address [a] after the history [ops], if one
    is alive there.  [proper ops]: new caches are made at free addresses, only live caches
    are used or destroyed, and Clear_Caches is not called before the first cache is made;
    traversing a map visits each of its keys once, in any order. *)
From Coq Require Import List Bool Arith Permutation.
From Verif Require Import Registry.
Import ListNotations.

Section Spec.
  Context {K T : Type}.

  Definition touches (o : rop K T) (a : nat) : bool :=
    match o with
    | RNew b _ | RDelete b | RStore b _ | RClear b => Nat.eqb a b
    | RClearAll _ => true
    end.

  (** The effect of one operation on the cache at [a]. *)
  Definition effect_at (o : rop K T) (x : option (contents K T)) : option (contents K T) :=
    match o with
    | RNew _ c => Some c
    | RDelete _ => None
    | RStore _ c => match x with Some _ => Some c | None => None end
    | RClear _ | RClearAll _ =>
        match x with
        | Some (CFun _) => Some (CFun [])
        | Some (CVal _ v) => Some (CVal false v)
        | None => None
        end
    end.

  (** Latest operation first. *)
  Fixpoint live (ops : list (rop K T)) (a : nat) : option (contents K T) :=
    match ops with
    | [] => None
    | o :: before => if touches o a then effect_at o (live before a) else live before a
    end.

  Definition is_new (o : rop K T) : Prop := match o with RNew _ _ => True | _ => False end.

  Fixpoint proper (ops : list (rop K T)) : Prop :=
    match ops with
    | [] => True
    | o :: before =>
        proper before /\
        match o with
        | RNew a _ => live before a = None
        | RDelete a | RStore a _ | RClear a => live before a <> None
        | RClearAll order =>
            (forall l, Permutation (order l) l) /\ (exists o', In o' before /\ is_new o')
        end
    end.
End Spec.
